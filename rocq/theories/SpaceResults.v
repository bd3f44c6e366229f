(** * Distributed spaces: the statements of C08-C13 and C51 *)
From Verif Require Import Base BaseFacts Topology TopologyFacts DofMap DofMapFacts SpecDof DofMapResults
  Process ProcessFacts Space SpecSpace SpaceFacts SpaceScript.

(** ** Counting owned DOFs *)

Lemma count_firstn_lt r l i j o : i < j -> nth_error l i = Some o -> owned_by r o = true ->
  count_owned r (firstn i l) < count_owned r (firstn j l).
Proof.
  revert i j. induction l as [|x t IH]; intros [|i] [|j] Hij Ho Hb; simpl in *; try discriminate; try lia.
  - inversion Ho; subst. unfold count_owned. simpl. rewrite Hb. simpl. lia.
  - assert (H : i < j) by lia. specialize (IH i j H Ho Hb). unfold count_owned in *. simpl.
    destruct (owned_by r x); simpl; lia.
Qed.

Lemma count_firstn_full r l i o : nth_error l i = Some o -> owned_by r o = true ->
  count_owned r (firstn i l) < count_owned r l.
Proof.
  intros Ho Hb. rewrite <- (firstn_all l) at 2. apply (count_firstn_lt r l i (length l) o); auto.
  apply nth_error_Some. congruence.
Qed.

Lemma count_firstn_inj r l i j o o' : nth_error l i = Some o -> nth_error l j = Some o' ->
  owned_by r o = true -> owned_by r o' = true ->
  count_owned r (firstn i l) = count_owned r (firstn j l) -> i = j.
Proof.
  intros Hi Hj Bi Bj E. destruct (lt_eq_lt_dec i j) as [[H|H]|H]; auto.
  - assert (L := count_firstn_lt r l i j o H Hi Bi). lia.
  - assert (L := count_firstn_lt r l j i o' H Hj Bj). lia.
Qed.

Lemma count_firstn_onto r l n : n < count_owned r l ->
  exists i o, nth_error l i = Some o /\ owned_by r o = true /\ count_owned r (firstn i l) = n.
Proof.
  revert n. induction l as [|x t IH]; intros n Hn; [unfold count_owned in Hn; simpl in Hn; lia|].
  unfold count_owned in Hn. simpl in Hn. destruct (owned_by r x) eqn:E.
  - destruct n as [|n].
    + exists 0, x. auto.
    + simpl in Hn. destruct (IH n ltac:(unfold count_owned; lia)) as (i & o & H1 & H2 & H3).
      exists (S i), o. split; auto. split; auto. unfold count_owned in *. simpl. rewrite E. simpl. lia.
  - destruct (IH n Hn) as (i & o & H1 & H2 & H3). exists (S i), o. split; auto. split; auto.
    unfold count_owned in *. simpl. now rewrite E.
Qed.

Section Results.
Variables (N : nat) (g : nat -> grid) (fam : family) (dm : nat -> dofmap).
Hypothesis WD : wf_dist N g fam.
Hypothesis HD : dofmaps N g fam dm.

Notation final := (final_space N dm).
Notation off := (off dm).
Notation owner := (owner dm).
Notation nown := (nown dm).

Lemma off_mono a b : a <= b -> off a <= off b.
Proof.
  intros H. induction H; auto. rewrite off_S. lia.
Qed.

Lemma off_block r n : n < off r -> exists q, q < r /\ off q <= n < off (S q).
Proof.
  induction r as [|r IH]; intros H; [unfold SpaceScript.off in H; simpl in H; lia|].
  destruct (le_lt_dec (off r) n) as [L|L].
  - exists r. split; auto.
  - destruct (IH L) as (q & Hq & B). exists q. split; auto.
Qed.

Lemma final_ownership_ok r i : r < N -> i < dm_size (dm r) ->
  ownership_of (final r) i = Ok (final_ownership dm r i).
Proof.
  intros Hr Hi. unfold ownership_of. cbn [final_space sp_ownership].
  rewrite (vget_nth _ _ Owned) by (rewrite map_length, seq_length; auto). now rewrite nth_map_seq.
Qed.

Lemma final_number_ok r i : r < N -> i < dm_size (dm r) ->
  global_dof_index (final r) i = Ok (final_number dm r i).
Proof.
  intros Hr Hi. unfold global_dof_index. cbn [final_space sp_global_dofs].
  rewrite (vget_nth _ _ 0) by (rewrite map_length, seq_length; auto). now rewrite nth_map_seq.
Qed.

Lemma vget_bound {A} (l : list A) i x : vget l i = Ok x -> i < length l.
Proof. unfold vget. destruct (nth_error l i) eqn:E; [|discriminate]. intros _. apply nth_error_Some. congruence. Qed.

Lemma ownership_bound r i o : r < N -> ownership_of (final r) i = Ok o -> i < dm_size (dm r).
Proof.
  intros Hr H. apply vget_bound in H. cbn [final_space sp_ownership] in H. now rewrite map_length, seq_length in H.
Qed.

Lemma owner_at r i : r < N -> i < dm_size (dm r) -> exists o, nth_error (owner r) i = Some o.
Proof.
  intros Hr Hi. destruct (nth_error (owner r) i) eqn:E; eauto.
  apply nth_error_None in E. rewrite (owner_len N g fam dm WD HD r Hr) in E. lia.
Qed.

Lemma owned_iff r i n : r < N ->
  (ownership_of (final r) i = Ok Owned /\ global_dof_index (final r) i = Ok n <->
   exists o, nth_error (owner r) i = Some o /\ owned_by r o = true /\ n = off r + count_owned r (firstn i (owner r))).
Proof.
  intros Hr. split.
  - intros [Ho Hg]. assert (Hi := ownership_bound r i _ Hr Ho).
    destruct (owner_at r i Hr Hi) as (o & Eo).
    rewrite (final_ownership_ok r i Hr Hi) in Ho. rewrite (final_number_ok r i Hr Hi) in Hg.
    unfold final_ownership in Ho. unfold final_number in Hg. rewrite Eo in *.
    destruct (ow_rank o =? r) eqn:Er; [|discriminate]. exists o. split; auto. split; auto.
    unfold gnum, own_number in Hg. rewrite Eo in Hg. unfold owned_by in Hg at 1. rewrite Er in Hg. congruence.
  - intros (o & Eo & Eb & ->).
    assert (Hi : i < dm_size (dm r)).
    { rewrite <- (owner_len N g fam dm WD HD r Hr). apply nth_error_Some. congruence. }
    rewrite (final_ownership_ok r i Hr Hi), (final_number_ok r i Hr Hi).
    unfold final_ownership, final_number. rewrite Eo. unfold owned_by in Eb at 1. rewrite Eb. split; auto.
    unfold gnum, own_number. rewrite Eo. unfold owned_by at 1. now rewrite Eb.
Qed.

Lemma owned_block r i n : r < N ->
  ownership_of (final r) i = Ok Owned -> global_dof_index (final r) i = Ok n -> off r <= n < off (S r).
Proof.
  intros Hr Ho Hg. destruct (proj1 (owned_iff r i n Hr) (conj Ho Hg)) as (o & Eo & Eb & ->).
  assert (L := count_firstn_full r (owner r) i o Eo Eb). rewrite off_S. unfold SpaceScript.nown. lia.
Qed.

Lemma listed_owner r d e k i : r < N -> listed (dm r) d e k i ->
  nth_error (owner r) i = Some (own_of r (g r) (d, e, k)) /\ i < dm_size (dm r).
Proof.
  intros Hr Hl.
  assert (W := wd_grid _ _ _ WD r Hr). assert (WF := wd_fam _ _ _ WD r Hr). assert (HA := HD r Hr).
  split.
  - apply (listed_edof r (g r) fam (dm r) W WF HA) in Hl. unfold SpaceScript.owner.
    apply (owner_spec r (g r) fam (dm r) W WF HA i d e k Hl).
  - apply (listed_lt_iff r (g r) fam (dm r) W WF HA). eauto.
Qed.

(** A listed ghost entity belongs to another process. *)
Lemma listed_ghost_other r d e k i p x : r < N -> listed (dm r) d e k i -> g_own (g r) d e = Ghost p x -> p <> r.
Proof.
  intros Hr Hl Hg.
  assert (W := wd_grid _ _ _ WD r Hr). assert (WF := wd_fam _ _ _ WD r Hr). assert (HA := HD r Hr).
  apply (listed_edof r (g r) fam (dm r) W WF HA) in Hl.
  destruct (the_inv r (g r) fam (dm r) W WF HA) as (tags & I).
  destruct (inv_from _ _ _ _ _ _ _ I d e) as (c & j & l & Hs & _).
  - intros E. rewrite E in Hl. destruct k; discriminate.
  - destruct (wd_ghost _ _ _ WD r c d j e p x Hr Hs Hg) as (_ & H & _). exact H.
Qed.

Lemma gl_of_ghost r p : r < N -> p <> r ->
  (forall i, In i (map fst (gl_of dm r p)) <-> ghost_dof g dm r p i) /\ NoDup (map fst (gl_of dm r p)).
Proof.
  intros Hr Hp. 
  assert (W := wd_grid _ _ _ WD r Hr). assert (WF := wd_fam _ _ _ WD r Hr). assert (HA := HD r Hr).
  split.
  - intros i. split.
    + intros H. apply in_map_iff in H. destruct H as ([j o] & E & H). cbn in E. subst j.
      apply In_ghosts_of in H. destruct H as (_ & Ho & Er).
      destruct (owner_origin N g fam dm WD HD r i o Hr Ho) as (d & e & k & Hk & Eo & _).
      unfold own_of in Eo. destruct (g_own (g r) d e) as [| |q x] eqn:Eg; subst o; cbn [ow_rank] in Er; try congruence.
      subst q. exists d, e, k, x. split; auto. now apply (listed_edof r (g r) fam (dm r) W WF HA).
    + intros (d & e & k & x & Hl & Eg). destruct (listed_owner r d e k i Hr Hl) as [Ho Hi].
      apply in_map_iff. exists (i, own_of r (g r) (d, e, k)). split; auto.
      apply In_ghosts_of. split; auto. split; auto. unfold own_of. now rewrite Eg.
  - unfold gl_of, ghosts_of. rewrite (proj2 (Nat.eqb_neq p r) Hp).
    assert (Hn : NoDup (map fst (enumerate (owner r)))).
    { rewrite map_fst_enumerate. apply seq_NoDup. }
    induction (enumerate (owner r)) as [|x t IH]; simpl; [constructor|].
    simpl in Hn. inversion Hn; subst. destruct (owned_by p (snd x)); simpl; auto. constructor; auto.
    intros H. apply H1. apply in_map_iff in H. destruct H as (y & E & Hy). apply filter_In in Hy.
    apply in_map_iff. exists y. tauto.
Qed.
End Results.

(** ** Statements *)

Lemma global_numbers : forall N g fam dm eager sp,
  wf_dist N g fam -> dofmaps N g fam dm -> creates N eager dm sp ->
  (forall r i n, r < N -> owned_as sp r i n -> forall q, q < N -> n < global_size (sp q)) /\
  (forall n q, q < N -> n < global_size (sp q) -> exists r i, r < N /\ owned_as sp r i n) /\
  (forall r r' i i' n, r < N -> r' < N -> owned_as sp r i n -> owned_as sp r' i' n -> r = r' /\ i = i') /\
  (forall r r' i i' n n', r < N -> r' < N -> owned_as sp r i n -> owned_as sp r' i' n' ->
     r < r' \/ (r = r' /\ i < i') -> n < n').
Proof.
  intros N g fam dm eager sp WD HD HC.
  assert (E := creates_unique N g fam dm WD HD eager sp HC).
  assert (Hb : forall r i n, r < N -> owned_as sp r i n -> off dm r <= n < off dm (S r)).
  { intros r i n Hr [Ho Hg]. rewrite (E r Hr) in Ho, Hg. eapply owned_block; eauto. }
  assert (Hi : forall r i n, r < N -> owned_as sp r i n -> exists o, nth_error (owner dm r) i = Some o /\
            owned_by r o = true /\ n = off dm r + count_owned r (firstn i (owner dm r))).
  { intros r i n Hr [Ho Hg]. rewrite (E r Hr) in Ho, Hg.
    apply (proj1 (owned_iff N g fam dm WD HD r i n Hr) (conj Ho Hg)). }
  split; [|split; [|split]].
  - intros r i n Hr Ho q Hq. rewrite (E q Hq). cbn. assert (B := Hb r i n Hr Ho).
    assert (M := off_mono dm (S r) N Hr). lia.
  - intros n q Hq Hn. rewrite (E q Hq) in Hn. cbn in Hn.
    destruct (off_block dm N n Hn) as (r & Hr & B). rewrite off_S in B. unfold nown in B.
    destruct (count_firstn_onto r (owner dm r) (n - off dm r) ltac:(lia)) as (i & o & H1 & H2 & H3).
    exists r, i. split; auto. unfold owned_as. rewrite (E r Hr).
    apply (owned_iff N g fam dm WD HD r i n Hr). exists o. split; auto. split; auto. lia.
  - intros r r' i i' n Hr Hr' H1 H2. assert (B1 := Hb r i n Hr H1). assert (B2 := Hb r' i' n Hr' H2).
    assert (r = r').
    { destruct (lt_eq_lt_dec r r') as [[H|H]|H]; auto; exfalso.
      - assert (M := off_mono dm (S r) r' H). lia.
      - assert (M := off_mono dm (S r') r H). lia. }
    subst r'. split; auto.
    destruct (Hi r i n Hr H1) as (o & O1 & O2 & O3). destruct (Hi r i' n Hr H2) as (o' & P1 & P2 & P3).
    eapply count_firstn_inj; eauto. lia.
  - intros r r' i i' n n' Hr Hr' H1 H2 [Hlt|[<- Hlt]].
    + assert (B1 := Hb r i n Hr H1). assert (B2 := Hb r' i' n' Hr' H2). assert (M := off_mono dm (S r) r' Hlt). lia.
    + destruct (Hi r i n Hr H1) as (o & O1 & O2 & O3). destruct (Hi r i' n' Hr H2) as (o' & P1 & P2 & P3).
      assert (L := count_firstn_lt r (owner dm r) i i' o Hlt O1 O2). lia.
Qed.

Lemma ghosts_agree : forall N g fam dm eager sp r i p l,
  wf_dist N g fam -> dofmaps N g fam dm -> creates N eager dm sp -> r < N ->
  ownership_of (sp r) i = Ok (Ghost p l) ->
  p < N /\ p <> r /\ ownership_of (sp p) l = Ok Owned /\
  (exists n, global_dof_index (sp r) i = Ok n /\ global_dof_index (sp p) l = Ok n) /\
  exists d e k x, listed (sp_dofmap (sp r)) d e k i /\ g_own (g r) d e = Ghost p x /\ listed (sp_dofmap (sp p)) d x k l.
Proof.
  intros N g fam dm eager sp r i p l WD HD HC Hr Ho.
  assert (E := creates_unique N g fam dm WD HD eager sp HC).
  rewrite (E r Hr) in *. assert (Hi := ownership_bound N dm r i _ Hr Ho).
  destruct (owner_at N g fam dm WD HD r i Hr Hi) as (o & Eo).
  rewrite (final_ownership_ok N dm r i Hr Hi) in Ho. unfold final_ownership in Ho. rewrite Eo in Ho.
  destruct (Nat.eqb_spec (ow_rank o) r) as [Er|Er]; [discriminate|]. inversion Ho; subst p l. clear Ho.
  destruct (ghost_entry N g fam dm WD HD r i o Hr Eo Er) as (Hp & He & Hq & Hs).
  split; auto. split; auto. rewrite (E (ow_rank o) Hp).
  assert (Hb : ow_rank o =? ow_rank o = true) by apply Nat.eqb_refl.
  split.
  { rewrite (final_ownership_ok N dm _ _ Hp Hs). unfold final_ownership. rewrite Hq, Hb. reflexivity. }
  split.
  { exists (remote_global dm o). rewrite (final_number_ok N dm r i Hr Hi), (final_number_ok N dm _ _ Hp Hs).
    unfold final_number. rewrite Eo, Hq, Hb. rewrite (proj2 (Nat.eqb_neq _ _) Er). auto. }
  destruct (owner_origin N g fam dm WD HD r i o Hr Eo) as (d & e & k & Hk & Eo' & _).
  unfold own_of in Eo'. destruct (g_own (g r) d e) as [| |q x] eqn:Eg; subst o; cbn [ow_rank ow_dim ow_ent ow_dof] in *; try congruence.
  exists d, e, k, x. cbn [final_space sp_dofmap]. split; [|split; auto].
  - apply (listed_edof r (g r) fam (dm r) (wd_grid _ _ _ WD r Hr) (wd_fam _ _ _ WD r Hr) (HD r Hr)). exact Hk.
  - apply (listed_edof q (g q) fam (dm q) (wd_grid _ _ _ WD q Hp) (wd_fam _ _ _ WD q Hp) (HD q Hp)). exact He.
Qed.

Lemma filter_map_length {A B} (f : A -> B) (p : B -> bool) l :
  length (filter p (map f l)) = length (filter (fun x => p (f x)) l).
Proof. induction l; simpl; auto. destruct (p (f a)); simpl; auto. Qed.

Lemma global_size_agreed : forall N g fam dm eager sp,
  wf_dist N g fam -> dofmaps N g fam dm -> creates N eager dm sp ->
  (forall r, r < N -> global_size (sp r) = sum_list (map (fun q => owned_count (sp q)) (seq 0 N))) /\
  (forall r d e k i, r < N -> listed (sp_dofmap (sp r)) d e k i ->
     (ownership_of (sp r) i = Ok Owned <-> owned_entity (g r) d e) /\
     (forall p, (exists l, ownership_of (sp r) i = Ok (Ghost p l)) <-> exists x, g_own (g r) d e = Ghost p x)).
Proof.
  intros N g fam dm eager sp WD HD HC.
  assert (E := creates_unique N g fam dm WD HD eager sp HC).
  split.
  - intros r Hr. rewrite (E r Hr). cbn [final_space global_size sp_global_size]. unfold off, sum_list. f_equal.
    apply map_ext_in. intros q Hq. apply in_seq in Hq. assert (Hq' : q < N) by lia. rewrite (E q Hq').
    unfold owned_count, nown, count_owned, local_size. cbn [final_space sp_dofmap].
    rewrite <- (owner_len N g fam dm WD HD q Hq').
    assert (Hx : forall i, i < length (owner dm q) ->
      match ownership_of (final_space N dm q) i with Ok o => is_owned o | _ => false end =
      match nth_error (owner dm q) i with Some o => owned_by q o | None => false end).
    { intros i Hi. rewrite (owner_len N g fam dm WD HD q Hq') in Hi.
      rewrite (final_ownership_ok N dm q i Hq' Hi). unfold final_ownership.
      destruct (owner_at N g fam dm WD HD q i Hq' Hi) as (o & ->). unfold owned_by.
      destruct (ow_rank o =? q); reflexivity. }
    rewrite (filter_ext_in _ (fun i => match nth_error (owner dm q) i with Some o => owned_by q o | None => false end)).
    2:{ intros i Hi. apply in_seq in Hi. apply Hx. lia. }
    clear. induction (owner dm q) as [|x t IH]; auto. cbn [length seq filter nth_error].
    rewrite <- seq_shift. destruct (owned_by q x); cbn [length]; rewrite filter_map_length; cbn [nth_error]; now rewrite IH.
  - intros r d e k i Hr Hl. rewrite (E r Hr) in *. cbn [final_space sp_dofmap] in Hl.
    assert (Hgo : forall p x, g_own (g r) d e = Ghost p x -> p <> r).
    { intros p x Hg. eapply listed_ghost_other; eauto. }
    destruct (listed_owner N g fam dm WD HD r d e k i Hr Hl) as [Ho Hi].
    rewrite (final_ownership_ok N dm r i Hr Hi). unfold final_ownership. rewrite Ho. unfold own_of, owned_entity.
    destruct (g_own (g r) d e) as [| |p x] eqn:Eg; cbn [ow_rank].
    + rewrite Nat.eqb_refl. split; [split; [discriminate|auto]|]. intros q. split; [intros (l & H)|intros (x & H)]; discriminate.
    + rewrite Nat.eqb_refl. split; [split; [discriminate|auto]|]. intros q. split; [intros (l & H)|intros (x & H)]; discriminate.
    + rewrite (proj2 (Nat.eqb_neq p r) (Hgo p x eq_refl)). split; [split; [discriminate|]|].
      * intros H. exfalso. eapply H; reflexivity.
      * intros q. split; [intros (l & H)|intros (y & H)]; inversion H; subst; eauto.
Qed.

Lemma serial_identity : forall g fam dm eager sp,
  wf_grid g -> wf_family (g_types g 2) fam ->
  (forall c d i e p x, sub_at g c d i e -> g_own g d e <> Ghost p x) ->
  assign_dofs 0 g fam = Ok dm -> creates 1 eager (fun _ => dm) sp ->
  is_serial 1 = true /\ global_size (sp 0) = local_size (sp 0) /\ local_size (sp 0) = dm_size dm /\
  (forall i, i < local_size (sp 0) -> global_dof_index (sp 0) i = Ok i /\ ownership_of (sp 0) i = Ok Owned) /\
  (forall i, local_size (sp 0) <= i -> global_dof_index (sp 0) i = Panic) /\
  (forall n s, steps 1 eager n (start 1 (fun _ => dm)) s -> n = 0).
Proof.
  intros g fam dm eager sp W WF Hno HA HC.
  assert (WD : wf_dist 1 (fun _ => g) fam).
  { constructor; auto. intros. exfalso. eapply Hno; eauto. }
  assert (HD : dofmaps 1 (fun _ => g) fam (fun _ => dm)).
  { intros r Hr. replace r with 0 by lia. exact HA. }
  assert (E := creates_unique 1 _ fam _ WD HD eager sp HC 0 Nat.lt_0_1). rewrite E.
  assert (Hall : forall i o, nth_error (dm_owner dm) i = Some o -> owned_by 0 o = true).
  { intros i o Ho. destruct (owner_origin 1 _ fam _ WD HD 0 i o Nat.lt_0_1 Ho) as (d & e & k & _ & Eo & c & j & Hs).
    unfold own_of in Eo. destruct (g_own g d e) eqn:Eg; try (subst o; reflexivity).
    exfalso. eapply Hno; eauto. }
  assert (Hlen : length (dm_owner dm) = dm_size dm) by (apply (owner_len 1 _ fam _ WD HD 0 Nat.lt_0_1)).
  assert (Hc : forall l : list owner_entry, (forall i o, nth_error l i = Some o -> owned_by 0 o = true) -> count_owned 0 l = length l).
  { unfold count_owned. induction l as [|x t IH]; intros H; auto. simpl. rewrite (H 0 x eq_refl). simpl. f_equal.
    apply IH. intros i o Hi. apply (H (S i) o Hi). }
  split; [reflexivity|]. split; [|split; [reflexivity|split; [|split]]].
  - unfold global_size, local_size, final_space, off, nown, owner. cbn [sp_global_size sp_dofmap seq map sum_list fold_right].
    rewrite Hc by auto. rewrite Hlen. lia.
  - intros i Hi. unfold local_size in Hi. cbn [final_space sp_dofmap] in Hi.
    rewrite (final_number_ok 1 _ 0 i Nat.lt_0_1 Hi), (final_ownership_ok 1 _ 0 i Nat.lt_0_1 Hi).
    unfold final_number, final_ownership, owner.
    destruct (nth_error (dm_owner dm) i) as [o|] eqn:Eo; [|apply nth_error_None in Eo; lia].
    assert (Hb := Hall i o Eo). unfold owned_by in Hb. rewrite Hb. split; auto.
    unfold gnum, own_number, owner. rewrite Eo. unfold owned_by at 1. rewrite Hb. f_equal.
    rewrite Hc; [rewrite firstn_length, Hlen; unfold off; simpl; lia|].
    intros j o' Hj. apply (Hall j). rewrite <- (firstn_skipn i (dm_owner dm)). rewrite nth_error_app1; auto.
    apply nth_error_Some. congruence.
  - intros i Hi. unfold local_size in Hi. cbn [final_space sp_dofmap] in Hi.
    unfold global_dof_index, vget. cbn [final_space sp_global_dofs].
    rewrite (proj2 (nth_error_None _ _)); auto. now rewrite map_length, seq_length.
  - intros n s H. destruct (NInv_steps 1 eager _ _ _ n s (start_inv 1 _ fam _ WD HD) H) as (rest & _ & L & _).
    unfold remaining in L. cbn in L. lia.
Qed.

Lemma buffered_creation : forall N g fam dm,
  wf_dist N g fam -> dofmaps N g fam dm ->
  exists sp bound, creates N buffered dm sp /\
  forall n s, steps N buffered n (start N dm) s ->
    n <= bound /\
    (forall r, r < N -> n_proc s r <> Crash) /\
    ((exists s', step N buffered s s') \/
     (finished N s sp /\ forall r q, r < N -> q < N -> n_chan s r q = [])).
Proof.
  intros N g fam dm WD HD. exists (final_space N dm), (remaining N (script N dm)). split.
  - eapply eager_completes; eauto.
  - intros n s H. destruct (eager_outcome N g fam dm WD HD buffered ltac:(reflexivity) n s H) as (A & B & [C|C]); auto.
Qed.

Lemma synchronous_never : forall N g fam dm eager,
  wf_dist N g fam -> dofmaps N g fam dm -> 2 <= N -> (forall l, eager (MVec l) = false) ->
  forall n s, steps N eager n (start N dm) s -> forall r a, r < N -> n_proc s r <> Ret a.
Proof.
  intros N g fam dm eager WD HD HN HE n s H r a Hr.
  apply (requests_stuck N g fam dm WD HD eager (fun r => r < N)) with (n := n); auto.
  intros x Hx. exists (if x =? 0 then 1 else 0). destruct (Nat.eqb_spec x 0); repeat split; auto; lia.
Qed.

Lemma limited_completes : forall N g fam dm limit,
  wf_dist N g fam -> dofmaps N g fam dm ->
  (forall r p l, r < N -> NoDup l -> (forall i, In i l -> ghost_dof g dm r p i) -> length l <= limit) ->
  exists sp bound, creates N buffered dm sp /\
  forall n s, steps N (eager_limit limit) n (start N dm) s ->
    n <= bound /\
    (forall r, r < N -> n_proc s r <> Crash) /\
    ((exists s', step N (eager_limit limit) s s') \/
     (finished N s sp /\ forall r q, r < N -> q < N -> n_chan s r q = [])).
Proof.
  intros N g fam dm limit WD HD Hl.
  assert (He : forall r q m key, r < N -> In (ES q m key) (script N dm r) -> eager_limit limit m = true).
  { intros r q m key Hr Hin. destruct (script_messages N dm r q m key Hr Hin) as [(n & ->)|(l & p & p' & Hp & Hp' & -> & El)]; auto.
    cbn [eager_limit]. apply Nat.leb_le. rewrite El.
    destruct (Nat.eq_dec p' p) as [->|Hne]; [unfold gl_of, ghosts_of; rewrite Nat.eqb_refl; simpl; lia|].
    destruct (gl_of_ghost N g fam dm WD HD p p' Hp Hne) as [G1 G2].
    rewrite <- (map_length fst). apply (Hl p p'); auto. intros i Hi. now apply G1. }
  exists (final_space N dm), (remaining N (script N dm)). split.
  - eapply eager_completes; eauto.
  - intros n s H. destruct (eager_outcome N g fam dm WD HD _ He n s H) as (A & B & [C|C]); auto.
Qed.

Lemma limited_stuck : forall N g fam dm limit (S : nat -> Prop),
  wf_dist N g fam -> dofmaps N g fam dm ->
  (forall r, S r -> r < N /\ exists p l, S p /\ NoDup l /\ limit < length l /\
      forall i, In i l -> ghost_dof g dm r p i) ->
  forall n s, steps N (eager_limit limit) n (start N dm) s -> forall r a, S r -> n_proc s r <> Ret a.
Proof.
  intros N g fam dm limit S WD HD HS.
  apply (requests_stuck N g fam dm WD HD (eager_limit limit) S).
  - intros r Hr. now destruct (HS r Hr).
  - intros r Hr. destruct (HS r Hr) as (Hr' & p & l & Hp & Hn & Hlen & Hg). exists p. split; auto.
    assert (Hne : p <> r).
    { destruct l as [|i l]; [simpl in Hlen; lia|]. destruct (Hg i (or_introl eq_refl)) as (d & e & k & x & H1 & H2).
      eapply listed_ghost_other; eauto. }
    split; auto. intros v Hv. cbn [eager_limit]. apply Nat.leb_gt. rewrite Hv.
    destruct (gl_of_ghost N g fam dm WD HD r p Hr' Hne) as [G1 G2].
    assert (L : length l <= length (map fst (gl_of dm r p))).
    { apply NoDup_incl_length; auto. intros i Hi. apply G1. auto. }
    rewrite map_length in L. lia.
Qed.
