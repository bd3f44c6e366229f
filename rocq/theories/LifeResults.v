(** * Life of native objects behind Python: results *)
From Verif Require Import Base BaseFacts Python PythonLife SpecLife.
From Coq Require Import Lia.

Lemma assoc_in_some : forall (V : Type) (l : list (nat * V)) k v, assoc Nat.eqb k l = Some v -> In (k, v) l.
Proof.
  induction l as [| [k' v'] l IH]; intros k v H; cbn [assoc] in H; [discriminate|].
  destruct (k =? k') eqn:E; [apply Nat.eqb_eq in E; injection H as ->; left; congruence | right; auto].
Qed.

Lemma assoc_nodup : forall (V : Type) (l : list (nat * V)) k v,
  NoDup (map fst l) -> In (k, v) l -> assoc Nat.eqb k l = Some v.
Proof.
  induction l as [| [k' v'] l IH]; intros k v D I; [contradiction|].
  cbn [map fst] in D; inversion D as [| a b N D']; subst. cbn [assoc].
  destruct I as [E | I].
  - injection E as -> ->. now rewrite Nat.eqb_refl.
  - destruct (k =? k') eqn:E; [| now apply IH].
    apply Nat.eqb_eq in E; subst k'. exfalso; apply N.
    change k with (fst (k, v)). now apply in_map.
Qed.

Lemma nodup_filter_fst : forall (V : Type) (f : nat * V -> bool) (l : list (nat * V)),
  NoDup (map fst l) -> NoDup (map fst (filter f l)).
Proof.
  induction l as [| x l IH]; intros D; [constructor|].
  cbn [map] in D; inversion D as [| a b N D']; subst. cbn [filter].
  destruct (f x); [| auto]. cbn [map]. constructor; [| auto].
  intros I. apply N. apply in_map_iff in I as (y & E & I). apply filter_In in I as [I _].
  rewrite <- E. now apply in_map.
Qed.

Lemma nodup_fst_inj : forall (V : Type) (l : list (nat * V)) k v v',
  NoDup (map fst l) -> In (k, v) l -> In (k, v') l -> v = v'.
Proof.
  intros V l k v v' D I I'. pose proof (assoc_nodup _ _ _ _ D I). pose proof (assoc_nodup _ _ _ _ D I'). congruence.
Qed.

Definition is_options (x : nat * thing) : bool := match snd x with Options => true | _ => false end.
Definition is_matrix (x : nat * thing) : bool := match snd x with Matrix => true | _ => false end.

(** The invariant; [n] options have been made, at most [m] matrices lost. *)
Record sound (n m : nat) (s : life) : Prop := mkSound {
  so_heap : NoDup (map fst (l_heap s));
  so_next : forall h t, In (h, t) (l_heap s) -> h < l_next s;
  so_options_keys : NoDup (map fst (l_options s));
  so_options_made : forall i h, In (i, h) (l_options s) -> i < l_options_made s;
  so_options_inj : forall i i' h, In (i, h) (l_options s) -> In (i', h) (l_options s) -> i = i';
  so_options : forall i h, In (i, h) (l_options s) -> In (h, Options) (l_heap s);
  so_default : exists h, In (0, h) (l_options s);
  so_keys : NoDup (map fst (l_assemblers s));
  so_made : forall j p, In (j, p) (l_assemblers s) -> j < l_assemblers_made s;
  so_assemblers : forall j p, In (j, p) (l_assemblers s) ->
    ha_owned p = true /\ exists o, In (ha_handle p, Assembler o) (l_heap s) /\ In (ha_options p, o) (l_options s);
  so_inj : forall j j' p p', In (j, p) (l_assemblers s) -> In (j', p') (l_assemblers s) -> ha_handle p = ha_handle p' -> j = j';
  so_held : forall h o, In (h, Assembler o) (l_heap s) -> exists j p, In (j, p) (l_assemblers s) /\ ha_handle p = h;
  so_count : length (filter is_options (l_heap s)) = n;
  so_lost : length (filter is_matrix (l_heap s)) <= m
}.

Definition grows (a : action) : nat := match a with MakeOptions => 1 | _ => 0 end.
Definition loses (a : action) : nat := match a with RunAssembleSingular _ NoMemory => 1 | _ => 0 end.

Lemma behind_in : forall n m s h t, sound n m s -> In (h, t) (l_heap s) -> behind h s = Some t.
Proof. intros n m s h t [D]; intros. now apply assoc_nodup. Qed.

Lemma sound_weaken : forall n m m' s, m <= m' -> sound n m s -> sound n m' s.
Proof. intros n m m' s L []; constructor; auto; lia. Qed.

Lemma usable : forall n m s j p, sound n m s -> assoc Nat.eqb j (l_assemblers s) = Some p -> assembler_usable p s = true.
Proof.
  intros n m s j p B A. apply assoc_in_some in A.
  destruct (so_assemblers _ _ _ B _ _ A) as (_ & o & I & Io). unfold assembler_usable.
  rewrite (behind_in _ _ _ _ _ B I). rewrite (behind_in _ _ _ _ _ B (so_options _ _ _ B _ _ Io)). reflexivity.
Qed.

Lemma made_options : forall n m s s', sound n m s -> make_options s = Returned s' -> sound (S n) m s'.
Proof.
  intros n m s s' B E. unfold make_options, make in E. injection E as <-. destruct B. constructor; cbn [l_heap l_next l_options l_options_made l_assemblers l_assemblers_made].
  - cbn [map fst]. constructor; [| auto]. intros I. apply in_map_iff in I as ([h t] & E & I). cbn [fst] in E; subst. apply so_next0 in I. lia.
  - intros h t [E | I]; [injection E as <- <-; lia | apply so_next0 in I; lia].
  - cbn [map fst]. constructor; [| auto]. intros I. apply in_map_iff in I as ([h t] & E & I). cbn [fst] in E; subst. apply so_options_made0 in I. lia.
  - intros i h [E | I]; [injection E as <- <-; lia | apply so_options_made0 in I; lia].
  - intros i i' h [E | I] [E' | I'].
    + congruence.
    + injection E as <- <-. apply so_options0 in I'. apply so_next0 in I'. lia.
    + injection E' as <- <-. apply so_options0 in I. apply so_next0 in I. lia.
    + eauto.
  - intros i h [E | I]; [injection E as <- <-; now left | right; eauto].
  - destruct so_default0 as (h & I). exists h. now right.
  - auto.
  - auto.
  - intros j p I. destruct (so_assemblers0 _ _ I) as (O & o & I1 & I2). split; [auto|]. exists o; split; now right.
  - auto.
  - intros h o [E | I]; [discriminate | eauto].
  - cbn [filter is_options snd length]. now f_equal.
  - cbn [filter is_matrix snd]. exact so_lost0.
Qed.

Lemma collected_options : forall n m s s' i, sound n m s -> collect_options i s = Returned s' -> sound n m s'.
Proof.
  intros n m s s' i B E. unfold collect_options in E.
  destruct (options_referred i s) eqn:R; injection E as <-; [exact B|].
  unfold options_referred in R. apply orb_false_iff in R as [R0 R]. apply Nat.eqb_neq in R0.
  assert (R' : forall j p, In (j, p) (l_assemblers s) -> ha_options p <> i).
  { intros j p I F. assert (X : existsb (fun x => ha_options (snd x) =? i) (l_assemblers s) = true); [| congruence].
    apply existsb_exists. exists (j, p). split; [exact I|]. cbn [snd]. now apply Nat.eqb_eq. }
  destruct B. constructor; cbn [l_heap l_next l_options l_options_made l_assemblers l_assemblers_made]; auto.
  - now apply nodup_filter_fst.
  - intros k h I. apply filter_In in I as [I _]. eauto.
  - intros k k' h I I'. apply filter_In in I as [I _]. apply filter_In in I' as [I' _]. eauto.
  - intros k h I. apply filter_In in I as [I _]. eauto.
  - destruct so_default0 as (h & I). exists h. apply filter_In; split; [exact I|]. cbn [fst].
    apply negb_true_iff, Nat.eqb_neq. lia.
  - intros j p I. destruct (so_assemblers0 _ _ I) as (O & o & I1 & I2). split; [auto|]. exists o; split; [auto|].
    apply filter_In; split; [exact I2|]. cbn [fst]. apply negb_true_iff, Nat.eqb_neq. eauto.
Qed.

Lemma made_assembler : forall n m s o op d,
  sound n m s ->
  match make_assembler o op d s with Returned s' | Threw s' => sound n m s' | Killed => True | Wild => False end.
Proof.
  intros n m s o op d B. unfold make_assembler.
  set (i := match o with Some i => i | None => 0 end).
  destruct (assoc Nat.eqb i (l_options s)) as [h|] eqn:A; [| exact B].
  destruct (laplace_accepts op d); [| destruct d; exact B || exact I].
  assert (Ih := assoc_in_some _ _ _ _ A).
  rewrite (behind_in _ _ _ _ _ B (so_options _ _ _ B _ _ Ih)).
  assert (G : sound n m (mkLife (S (l_next s)) ((l_next s, Assembler h) :: l_heap s) (l_options_made s) (l_options s)
                           (S (l_assemblers_made s)) ((l_assemblers_made s, mkHeldAssembler i (l_next s) true) :: l_assemblers s))).
  { destruct B. constructor; cbn [l_heap l_next l_options l_options_made l_assemblers l_assemblers_made]; auto.
    - cbn [map fst]. constructor; [| auto]. intros I. apply in_map_iff in I as ([h' t] & E & I). cbn [fst] in E; subst. apply so_next0 in I. lia.
    - intros h' t [E | I]; [injection E as <- <-; lia | apply so_next0 in I; lia].
    - intros k h' I. right. eauto.
    - cbn [map fst]. constructor; [| auto]. intros I. apply in_map_iff in I as ([h' t] & E & I). cbn [fst] in E; subst. apply so_made0 in I. lia.
    - intros j p [E | I]; [injection E as <- <-; lia | apply so_made0 in I; lia].
    - intros j p [E | I].
      + injection E as <- <-. cbn [ha_owned ha_handle ha_options]. split; [reflexivity|]. exists h. split; [now left | exact Ih].
      + destruct (so_assemblers0 _ _ I) as (O & o' & I1 & I2). split; [auto|]. exists o'; split; [now right | auto].
    - intros j j' p p' [E | I] [E' | I'] H.
      + congruence.
      + injection E as <- <-. cbn [ha_handle] in H. destruct (so_assemblers0 _ _ I') as (_ & o' & I1 & _). apply so_next0 in I1. lia.
      + injection E' as <- <-. cbn [ha_handle] in H. destruct (so_assemblers0 _ _ I) as (_ & o' & I1 & _). apply so_next0 in I1. lia.
      + eauto.
    - intros h' o' [E | I].
      + injection E as <- <-. exists (l_assemblers_made s), (mkHeldAssembler i (l_next s) true). split; [now left | reflexivity].
      + destruct (so_held0 _ _ I) as (j & p & I1 & I2). exists j, p. split; [now right | exact I2]. }
  destruct d; exact B || exact G.
Qed.

Lemma filter_filter_same : forall (A : Type) (f g : A -> bool) l,
  (forall x, In x l -> f x = true -> g x = true) -> filter f (filter g l) = filter f l.
Proof.
  induction l as [| x l IH]; intros H; [reflexivity|]. cbn [filter].
  assert (IH' : filter f (filter g l) = filter f l) by (apply IH; intros y I; apply H; now right).
  destruct (g x) eqn:G.
  - cbn [filter]. rewrite IH'. reflexivity.
  - destruct (f x) eqn:F; [| exact IH']. rewrite (H x (or_introl eq_refl) F) in G. discriminate.
Qed.

Lemma collected_assembler : forall n m s j,
  sound n m s ->
  match collect_assembler j s with Returned s' | Threw s' => sound n m s' | Killed => True | Wild => False end.
Proof.
  intros n m s j B. unfold collect_assembler.
  destruct (assoc Nat.eqb j (l_assemblers s)) as [p|] eqn:A; [| exact B].
  assert (Ip := assoc_in_some _ _ _ _ A).
  destruct (so_assemblers _ _ _ B _ _ Ip) as (O & o & Ih & Io). rewrite O.
  unfold behind. cbn [l_heap]. fold (behind (ha_handle p) s). rewrite (behind_in _ _ _ _ _ B Ih).
  assert (Only : forall t, In (ha_handle p, t) (l_heap s) -> t = Assembler o).
  { intros t I. apply (nodup_fst_inj _ _ _ _ _ (so_heap _ _ _ B) I Ih). }
  destruct B. constructor; unfold release; cbn [l_heap l_next l_options l_options_made l_assemblers l_assemblers_made]; auto.
  - now apply nodup_filter_fst.
  - intros h t I. apply filter_In in I as [I _]. eauto.
  - intros i h I. apply filter_In; split; [eauto|]. cbn [fst]. apply negb_true_iff, Nat.eqb_neq. intros ->.
    specialize (Only _ (so_options0 _ _ I)). discriminate.
  - now apply nodup_filter_fst.
  - intros k q I. apply filter_In in I as [I _]. eauto.
  - intros k q I. apply filter_In in I as [I N]. cbn [fst] in N. apply negb_true_iff, Nat.eqb_neq in N.
    destruct (so_assemblers0 _ _ I) as (O' & o' & I1 & I2). split; [auto|]. exists o'; split; [| auto].
    apply filter_In; split; [auto|]. cbn [fst]. apply negb_true_iff, Nat.eqb_neq. intros E. apply N.
    apply (so_inj0 _ _ _ _ I Ip E).
  - intros k k' q q' I I'. apply filter_In in I as [I _]. apply filter_In in I' as [I' _]. eauto.
  - intros h o' I. apply filter_In in I as [I N]. cbn [fst] in N. apply negb_true_iff, Nat.eqb_neq in N.
    destruct (so_held0 _ _ I) as (k & q & I1 & I2). exists k, q. split; [| exact I2].
    apply filter_In; split; [exact I1|]. cbn [fst]. apply negb_true_iff, Nat.eqb_neq. intros ->.
    assert (q = p) by (apply (nodup_fst_inj _ _ _ _ _ so_keys0 I1 Ip)). subst q. congruence.
  - rewrite filter_filter_same; [exact so_count0|]. intros [h t] I E. cbn [fst]. apply negb_true_iff, Nat.eqb_neq. intros ->.
    rewrite (Only _ I) in E. discriminate E.
  - rewrite filter_filter_same; [exact so_lost0|]. intros [h t] I E. cbn [fst]. apply negb_true_iff, Nat.eqb_neq. intros ->.
    rewrite (Only _ I) in E. discriminate E.
Qed.

Lemma made_matrix : forall n m s, sound n m s -> sound n (S m) (snd (make Matrix s)).
Proof.
  intros n m s []. unfold make. cbn [snd].
  constructor; cbn [l_heap l_next l_options l_options_made l_assemblers l_assemblers_made]; auto.
  - cbn [map fst]. constructor; [| auto]. intros I. apply in_map_iff in I as ([h t] & E & I). cbn [fst] in E; subst. apply so_next0 in I. lia.
  - intros h t [E | I]; [injection E as <- <-; lia | apply so_next0 in I; lia].
  - intros i h I. right. eauto.
  - intros j p I. destruct (so_assemblers0 _ _ I) as (O & o & I1 & I2). split; [auto|]. exists o; split; [now right | auto].
  - intros h o [E | I]; [discriminate | eauto].
  - cbn [filter is_matrix snd length]. lia.
Qed.

Lemma freed_matrix : forall n m s, sound n m s -> l_heap (release (l_next s) (snd (make Matrix s))) = l_heap s.
Proof.
  intros n m s B. unfold release, make. cbn [snd l_heap filter fst]. rewrite Nat.eqb_refl. cbn [negb].
  assert (H : forall l, (forall h t, In (h, t) l -> h < l_next s) -> filter (fun x : nat * thing => negb (fst x =? l_next s)) l = l).
  { induction l as [| [h t] l IH]; intros H; [reflexivity|]. cbn [filter fst].
    replace (h =? l_next s) with false by (symmetry; apply Nat.eqb_neq; specialize (H h t (or_introl eq_refl)); lia).
    cbn [negb]. f_equal. apply IH. intros h' t' I. apply (H h' t'). now right. }
  apply H. apply (so_next _ _ _ B).
Qed.

Lemma freed_sound : forall n m s, sound n m s -> sound n m (release (l_next s) (snd (make Matrix s))).
Proof.
  intros n m s B. pose proof (freed_matrix _ _ _ B) as H. destruct B.
  constructor; rewrite ?H; unfold release, make; cbn [snd l_next l_options l_options_made l_assemblers l_assemblers_made]; auto.
  intros h t I. specialize (so_next0 _ _ I). lia.
Qed.

Lemma step_sound : forall n m s a,
  sound n m s ->
  match act a s with Returned s' | Threw s' => sound (grows a + n) (loses a + m) s' | Killed => True | Wild => False end.
Proof.
  intros n m s [] B; cbn [act grows loses Nat.add].
  - pose proof (made_options n m s) as H. destruct (make_options s) eqn:E; try (unfold make_options, make in E; discriminate E). now apply H.
  - unfold use_options. destruct (assoc Nat.eqb i (l_options s)) as [h|] eqn:A; [| exact B].
    rewrite (behind_in _ _ _ _ _ B (so_options _ _ _ B _ _ (assoc_in_some _ _ _ _ A))). exact B.
  - pose proof (collected_options n m s) as H.
    destruct (collect_options i s) eqn:E; try (unfold collect_options in E; destruct (options_referred i s); discriminate E). eauto.
  - now apply made_assembler.
  - now apply collected_assembler.
  - unfold run_assemble. destruct (assoc Nat.eqb j (l_assemblers s)) as [p|] eqn:A; [| exact B].
    rewrite (usable _ _ _ _ _ B A). destruct r; exact B || exact I.
  - unfold run_assemble_singular. destruct (assoc Nat.eqb j (l_assemblers s)) as [p|] eqn:A;
      [| destruct r; cbn [Nat.add]; try exact B; apply (sound_weaken n m); [lia | exact B]].
    rewrite (usable _ _ _ _ _ B A).
    pose proof (made_matrix _ _ _ B) as M. pose proof (freed_sound _ _ _ B) as F.
    destruct (make Matrix s) as [h s'] eqn:E.
    assert (h = l_next s) by (unfold make in E; now injection E as <- _). subst h.
    cbn [snd] in M, F.
    assert (K : behind (l_next s) s' = Some Matrix).
    { apply (behind_in _ _ _ _ _ M). unfold make in E. injection E as <-. cbn [l_heap]. now left. }
    destruct r; [exact B | exact I | rewrite K; exact F | rewrite K; exact M].
Qed.

Lemma loaded_sound : forall s, module_loaded = Returned s -> sound 1 0 s.
Proof.
  intros s E. unfold module_loaded, make_options, make in E. cbn in E. injection E as <-.
  constructor; cbn [l_heap l_next l_options l_options_made l_assemblers l_assemblers_made map fst].
  - repeat constructor; intros [].
  - intros h t [E | []]. injection E as <- <-. lia.
  - repeat constructor; intros [].
  - intros h t [E | []]. injection E as <- <-. lia.
  - intros i i' h [E | []] [E' | []]. congruence.
  - intros i h [E | []]. injection E as <- <-. now left.
  - exists 0. now left.
  - constructor.
  - intros j p [].
  - intros j p [].
  - intros j j' p p' [].
  - intros h o [E | []]. discriminate E.
  - reflexivity.
  - cbn. lia.
Qed.

Lemma all_sound : forall l n m s,
  sound n m s ->
  match act_all l s with
  | Returned s' => sound (times_options l + n) (times_no_memory l + m) s'
  | Threw _ | Wild => False
  | Killed => True
  end.
Proof.
  induction l as [| a l IH]; intros n m s B; [exact B|]. cbn [act_all].
  pose proof (step_sound _ _ _ a B) as H.
  assert (X : times_options (a :: l) = grows a + times_options l) by (unfold times_options, grows; cbn [filter]; destruct a; reflexivity).
  assert (Y : times_no_memory (a :: l) = loses a + times_no_memory l) by (unfold times_no_memory, loses; cbn [filter]; destruct a as [| | | | | |? []]; reflexivity).
  rewrite X, Y. clear X Y.
  destruct (act a s) as [s'|s'| |]; [| | exact I | contradiction];
    specialize (IH _ _ _ H); destruct (act_all l s'); try exact IH;
    replace (grows a + times_options l + n) with (times_options l + (grows a + n)) by lia;
    replace (loses a + times_no_memory l + m) with (times_no_memory l + (loses a + m)) by lia; exact IH.
Qed.

Lemma reached_sound : forall l s, reached l s -> sound (S (times_options l)) (times_no_memory l) s.
Proof.
  intros l s (s0 & L & R). pose proof (all_sound l _ _ _ (loaded_sound _ L)) as H. rewrite R in H.
  rewrite Nat.add_0_r, Nat.add_comm in H. exact H.
Qed.

Theorem never_wild : forall l s0, module_loaded = Returned s0 -> act_all l s0 <> Wild.
Proof. intros l s0 L E. pose proof (all_sound l _ _ _ (loaded_sound _ L)) as H. now rewrite E in H. Qed.

Theorem options_outlive : forall l s j p,
  reached l s -> In (j, p) (l_assemblers s) ->
  exists o, allocated s (ha_handle p) (Assembler o) /\ allocated s o Options /\ In (ha_options p, o) (l_options s).
Proof.
  intros l s j p R I. apply reached_sound in R. destruct (so_assemblers _ _ _ R _ _ I) as (_ & o & I1 & I2).
  exists o. assert (I3 := so_options _ _ _ R _ _ I2).
  split; [| split; [| exact I2]]; (split; [assumption|]; intros t I'; apply (nodup_fst_inj _ _ _ _ _ (so_heap _ _ _ R) I'); assumption).
Qed.

Theorem assemblers_balance : forall l s h,
  reached l s ->
  (exists o, In (h, Assembler o) (l_heap s)) <-> exists j p, In (j, p) (l_assemblers s) /\ ha_handle p = h.
Proof.
  intros l s h R. apply reached_sound in R. split.
  - intros (o & I). exact (so_held _ _ _ R _ _ I).
  - intros (j & p & I & <-). destruct (so_assemblers _ _ _ R _ _ I) as (_ & o & I1 & _). now exists o.
Qed.

Theorem options_accumulate : forall l s,
  reached l s -> NoDup (options_addresses s) /\ length (options_addresses s) = S (times_options l).
Proof.
  intros l s R. apply reached_sound in R. unfold options_addresses. split.
  - apply nodup_filter_fst. exact (so_heap _ _ _ R).
  - rewrite map_length. exact (so_count _ _ _ R).
Qed.

Theorem matrices_freed : forall l s, reached l s -> length (matrix_addresses s) <= times_no_memory l.
Proof.
  intros l s R. apply reached_sound in R. unfold matrix_addresses. rewrite map_length. exact (so_lost _ _ _ R).
Qed.

(** [n] options objects, made and given up one after the other. *)
Fixpoint wasteful (n k : nat) : list action :=
  match n with
  | 0 => []
  | S n' => MakeOptions :: CollectOptions k :: wasteful n' (S k)
  end.

Lemma wasteful_runs : forall n s h,
  l_assemblers s = [] -> l_options s = [(0, h)] -> 0 < l_options_made s ->
  exists s', act_all (wasteful n (l_options_made s)) s = Returned s' /\ l_assemblers s' = [] /\ l_options s' = [(0, h)].
Proof.
  induction n as [| n IH]; intros s h A O M; [exists s; auto|].
  cbn [wasteful act_all act make_options make].
  set (s1 := mkLife _ _ _ _ _ _). unfold collect_options, options_referred.
  replace (l_assemblers s1) with (@nil (nat * held_assembler)) by (symmetry; exact A). cbn [existsb].
  replace (l_options_made s =? 0) with false by (symmetry; apply Nat.eqb_neq; lia). cbn [orb].
  replace (filter (fun x : nat * nat => negb (fst x =? l_options_made s)) (l_options s1)) with [(0, h)].
  2:{ subst s1. cbn [l_options]. rewrite O. cbn [filter fst]. rewrite Nat.eqb_refl. cbn [negb].
      replace (0 =? l_options_made s) with false by (symmetry; apply Nat.eqb_neq; lia). reflexivity. }
  apply (IH (mkLife (l_next s1) (l_heap s1) (l_options_made s1) [(0, h)] (l_assemblers_made s1) []) h);
    [reflexivity | reflexivity | cbn; lia].
Qed.

Theorem options_leak : forall n, exists l s,
  reached l s /\ all_collected s /\ times_no_memory l = 0 /\ length (options_addresses s) = S n.
Proof.
  intros n. exists (wasteful n 1).
  destruct (wasteful_runs n (mkLife 1 [(0, Options)] 1 [(0, 0)] 0 []) 0) as (s & R & A & O); [reflexivity | reflexivity | cbn; lia |].
  exists s.
  assert (T : forall k j, times_options (wasteful k j) = k).
  { induction k as [| k IH]; intros j; [reflexivity|]. unfold times_options in *. cbn [wasteful filter length]. now rewrite IH. }
  assert (N : forall k j, times_no_memory (wasteful k j) = 0).
  { induction k as [| k IH]; intros j; [reflexivity|]. unfold times_no_memory in *. cbn [wasteful filter]. apply IH. }
  assert (Q : reached (wasteful n 1) s) by (exists (mkLife 1 [(0, Options)] 1 [(0, 0)] 0 []); split; [reflexivity | exact R]).
  split; [exact Q|]. split; [split; [exact A | now exists 0]|]. split; [apply N|].
  rewrite (proj2 (options_accumulate _ _ Q)). now rewrite T.
Qed.

Theorem clean_without_options : forall l s,
  reached l s -> all_collected s -> times_options l = 0 -> times_no_memory l = 0 -> exists h, l_heap s = [(h, Options)].
Proof.
  intros l s R (A & h & O) T N. assert (B := reached_sound _ _ R). rewrite T, N in B.
  assert (F : forall x, In x (l_heap s) -> is_options x = true).
  { intros [a t] I. destruct t as [|o|]; [reflexivity| |].
    - destruct (so_held _ _ _ B _ _ I) as (j & p & I' & _). rewrite A in I'. contradiction.
    - exfalso. pose proof (so_lost _ _ _ B) as L.
      assert (I' : In (a, Matrix) (filter is_matrix (l_heap s))) by (apply filter_In; split; [exact I | reflexivity]).
      destruct (filter is_matrix (l_heap s)); [contradiction | cbn in L; lia]. }
  pose proof (so_count _ _ _ B) as C.
  assert (G : forall l, (forall x, In x l -> is_options x = true) -> filter is_options l = l).
  { induction l0 as [| x l0 IH]; intros H; [reflexivity|]. cbn [filter]. rewrite (H x (or_introl eq_refl)). f_equal. apply IH. intros y I. apply H. now right. }
  rewrite (G _ F) in C. destruct (l_heap s) as [| [a t] [|]] eqn:E; try discriminate C.
  specialize (F _ (or_introl eq_refl)). destruct t; try discriminate F. now exists a.
Qed.

(** What making and using do. *)
Theorem options_passed : forall l s o op d s', reached l s -> act (MakeAssembler o op d) s = Returned s' ->
  exists h a, In (given_or_default o, h) (l_options s) /\ (forall t, ~ In (a, t) (l_heap s)) /\
    l_heap s' = (a, Assembler h) :: l_heap s /\ l_options s' = l_options s /\
    l_assemblers s' = (l_assemblers_made s, mkHeldAssembler (given_or_default o) a true) :: l_assemblers s.
Proof.
  intros l s o op d s' R E. apply reached_sound in R. cbn [act] in E. unfold make_assembler in E. fold (given_or_default o) in E.
  destruct (assoc Nat.eqb (given_or_default o) (l_options s)) as [h|] eqn:A; [| discriminate E].
  apply assoc_in_some in A. exists h, (l_next s). split; [exact A|].
  split; [intros t I; apply (so_next _ _ _ R) in I; lia|].
  rewrite (behind_in _ _ _ _ _ R (so_options _ _ _ R _ _ A)) in E.
  destruct (laplace_accepts op d); destruct d; try discriminate E; injection E as <-; repeat split.
Qed.

Theorem use_succeeds : forall l s i h, reached l s -> In (i, h) (l_options s) -> act (UseOptions i) s = Returned s.
Proof.
  intros l s i h R I. apply reached_sound in R. cbn [act]. unfold use_options.
  rewrite (assoc_nodup _ _ _ _ (so_options_keys _ _ _ R) I), (behind_in _ _ _ _ _ R (so_options _ _ _ R _ _ I)). reflexivity.
Qed.

Theorem assemble_succeeds : forall l s j p, reached l s -> In (j, p) (l_assemblers s) ->
  act (RunAssemble j Assembled) s = Returned s /\
  exists s', act (RunAssembleSingular j Assembled) s = Returned s' /\
    l_heap s' = l_heap s /\ l_options s' = l_options s /\ l_assemblers s' = l_assemblers s.
Proof.
  intros l s j p R I. apply reached_sound in R. cbn [act]. unfold run_assemble, run_assemble_singular.
  pose proof (assoc_nodup _ _ _ _ (so_keys _ _ _ R) I) as A. rewrite A, (usable _ _ _ _ _ R A). split; [reflexivity|].
  exists (release (l_next s) (snd (make Matrix s))). split; [| split; [exact (freed_matrix _ _ _ R) | now split]].
  cbn [make snd]. unfold behind. cbn [l_heap assoc]. rewrite Nat.eqb_refl. reflexivity.
Qed.

Theorem kept : forall l s a s' i h j p, reached l s -> (act a s = Returned s' \/ act a s = Threw s') ->
  (In (i, h) (l_options s) -> a <> CollectOptions i -> In (i, h) (l_options s')) /\
  (In (j, p) (l_assemblers s) -> a <> CollectAssembler j -> In (j, p) (l_assemblers s')).
Proof.
  intros l s a s' i h j p R E. apply reached_sound in R.
  assert (Same : forall x, l_options x = l_options s -> l_assemblers x = l_assemblers s ->
    (In (i, h) (l_options s) -> a <> CollectOptions i -> In (i, h) (l_options x)) /\
    (In (j, p) (l_assemblers s) -> a <> CollectAssembler j -> In (j, p) (l_assemblers x))) by (intros x -> ->; auto).
  destruct a as [|k|k|o op d|k|k r|k r]; cbn [act] in E.
  - unfold make_options, make in E. destruct E as [E|E]; [|discriminate E]. injection E as <-. cbn. auto.
  - unfold use_options in E. destruct (assoc Nat.eqb k (l_options s)) as [x|]; [destruct (behind x s) as [[]|]|];
      destruct E as [E|E]; try discriminate E; injection E as <-; auto.
  - unfold collect_options in E. destruct (options_referred k s); destruct E as [E|E]; try discriminate E; injection E as <-; [auto|].
    cbn. split; [|auto]. intros I N. apply filter_In. split; [exact I|]. cbn [fst]. apply negb_true_iff, Nat.eqb_neq. congruence.
  - unfold make_assembler in E. destruct (assoc Nat.eqb _ (l_options s)) as [x|]; [|destruct E as [E|E]; try discriminate E; injection E as <-; auto].
    destruct (laplace_accepts op d); destruct d; destruct (behind x s) as [[]|]; destruct E as [E|E]; try discriminate E; injection E as <-; cbn; auto.
  - unfold collect_assembler in E. destruct (assoc Nat.eqb k (l_assemblers s)) as [q|]; [|destruct E as [E|E]; try discriminate E; injection E as <-; auto].
    assert (K : In (j, p) (l_assemblers s) -> CollectAssembler k <> CollectAssembler j -> In (j, p) (filter (fun x => negb (fst x =? k)) (l_assemblers s))).
    { intros I N. apply filter_In. split; [exact I|]. cbn [fst]. apply negb_true_iff, Nat.eqb_neq. congruence. }
    destruct (ha_owned q); [destruct (behind _ _) as [[]|]|]; destruct E as [E|E]; try discriminate E; injection E as <-; cbn; auto.
  - unfold run_assemble in E. destruct (assoc Nat.eqb k (l_assemblers s)) as [q|]; [destruct (assembler_usable q s); [destruct r|]|];
      destruct E as [E|E]; try discriminate E; injection E as <-; auto.
  - unfold run_assemble_singular in E. destruct (assoc Nat.eqb k (l_assemblers s)) as [q|]; [destruct (assembler_usable q s); [destruct r|]|];
      cbn [make] in E; try (destruct (behind _ _) as [[]|]); destruct E as [E|E]; try discriminate E; injection E as <-; auto.
Qed.

(** What is reported. *)
Theorem wild_reports : forall s,
  (forall i h, assoc Nat.eqb i (l_options s) = Some h -> (act (UseOptions i) s = Wild <-> behind h s <> Some Options)) /\
  (forall o op d h, assoc Nat.eqb (given_or_default o) (l_options s) = Some h -> d <> OtherDtype -> laplace_accepts op d = true ->
    (act (MakeAssembler o op d) s = Wild <-> behind h s <> Some Options)) /\
  (forall j p, assoc Nat.eqb j (l_assemblers s) = Some p -> ha_owned p = true ->
    (act (CollectAssembler j) s = Wild <-> forall x, behind (ha_handle p) s <> Some (Assembler x))) /\
  (forall j p r, assoc Nat.eqb j (l_assemblers s) = Some p ->
    (act (RunAssemble j r) s = Wild <-> forall x, behind (ha_handle p) s = Some (Assembler x) -> behind x s <> Some Options)).
Proof.
  intros s. split; [|split; [|split]].
  - intros i h A. cbn [act]. unfold use_options. rewrite A. destruct (behind h s) as [[]|]; split; congruence.
  - intros o op d h A N L. cbn [act]. unfold make_assembler. unfold given_or_default in A. rewrite A, L. destruct d; [| | | |congruence]; destruct (behind h s) as [[]|]; cbn [make]; split; congruence.
  - intros j p A O. cbn [act]. unfold collect_assembler. rewrite A, O.
    change (behind (ha_handle p) (mkLife (l_next s) (l_heap s) (l_options_made s) (l_options s) (l_assemblers_made s) (filter (fun x => negb (fst x =? j)) (l_assemblers s)))) with (behind (ha_handle p) s).
    destruct (behind (ha_handle p) s) as [[|x|]|]; split; try congruence. intros H. now destruct (H x).
  - intros j p r A. cbn [act]. unfold run_assemble. rewrite A. unfold assembler_usable. destruct (behind (ha_handle p) s) as [[|x|]|].
    + split; [|reflexivity]. intros _ x. discriminate.
    + destruct (behind x s) as [[]|] eqn:B; split; try (destruct r; congruence); try (intros _ y H; injection H as <-; congruence); intros H; exfalso; now apply (H x).
    + split; [|reflexivity]. intros _ x. discriminate.
    + split; [|reflexivity]. intros _ x. discriminate.
Qed.
