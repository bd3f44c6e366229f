(** * Every process of [FunctionSpace::new] follows a script *)
From Verif Require Import Base BaseFacts Topology TopologyFacts DofMap DofMapFacts SpecDof DofMapResults
  Process ProcessFacts Space SpecSpace.

(** ** Numbering the owned DOFs *)

Definition owned_by (r : nat) (o : owner_entry) : bool := ow_rank o =? r.
Definition count_owned (r : nat) (l : list owner_entry) : nat := length (filter (owned_by r) l).

(** The global number given to DOF [i] by its own process, 0 for ghosts. *)
Definition own_number (r offset : nat) (owner : list owner_entry) (i : nat) : nat :=
  match nth_error owner i with
  | Some o => if owned_by r o then offset + count_owned r (firstn i owner) else 0
  | None => 0
  end.

(** The ghosts owned by process [p], with their positions. *)
Definition ghosts_of (r p : nat) (owner : list owner_entry) : list (nat * owner_entry) :=
  if p =? r then [] else filter (fun io => owned_by p (snd io)) (enumerate owner).

Lemma length_push_at v p x v' : push_at v p x = Ok v' -> length v' = length v.
Proof.
  unfold push_at. intros H. apply bind_Ok_inv in H. destruct H as (row & _ & H).
  apply vset_Ok in H. destruct H as [_ ->]. apply length_set_nth.
Qed.

Lemma push_at_Ok v p x : p < length v ->
  push_at v p x = Ok (set_nth v p (nth p v [] ++ [x])).
Proof. intros H. unfold push_at. rewrite (vget_nth _ _ []) by auto. cbn [bind]. now rewrite vset_lt. Qed.

Lemma nth_push (v : list (list nat)) p x q : p < length v ->
  nth q (set_nth v p (nth p v [] ++ [x])) [] = nth q v [] ++ (if p =? q then [x] else []).
Proof.
  intros H. rewrite nth_set_nth. rewrite (proj2 (Nat.ltb_lt _ _) H), andb_true_r.
  destruct (Nat.eqb_spec p q); [subst; auto|now rewrite app_nil_r].
Qed.

Lemma count_owned_snoc r l o : count_owned r (l ++ [o]) = count_owned r l + if owned_by r o then 1 else 0.
Proof.
  unfold count_owned. rewrite filter_app, app_length. simpl. destruct (owned_by r o); simpl; lia.
Qed.

Lemma own_number_app r offset l l' i : i < length l -> own_number r offset (l ++ l') i = own_number r offset l i.
Proof.
  intros H. unfold own_number. rewrite nth_error_app1 by auto.
  rewrite firstn_app. replace (i - length l) with 0 by lia. simpl. now rewrite app_nil_r.
Qed.

Lemma own_number_out r offset l i : length l <= i -> own_number r offset l i = 0.
Proof. intros H. unfold own_number. rewrite (proj2 (nth_error_None _ _)); auto. Qed.

Lemma enumerate_snoc {A} (l : list A) x : enumerate (l ++ [x]) = enumerate l ++ [(length l, x)].
Proof.
  unfold enumerate. rewrite app_length. simpl. rewrite Nat.add_1_r, seq_S.
  assert (H : forall (a b : list nat) (c d : list A), length a = length c -> combine (a ++ b) (c ++ d) = combine a c ++ combine b d).
  { induction a; destruct c; simpl; intros; try discriminate; auto. now rewrite IHa by lia. }
  rewrite H; auto. apply seq_length.
Qed.

Record NumInv (rank size offset : nat) (len : nat) (pre : list owner_entry) (st : number_state) : Prop := {
  nv_len : length (nu_global st) = len;
  nv_global : forall i, nth i (nu_global st) 0 = own_number rank offset pre i;
  nv_next : nu_next st = offset + count_owned rank pre;
  nv_li : length (nu_indices st) = size;
  nv_ld : length (nu_dims st) = size;
  nv_le : length (nu_ents st) = size;
  nv_lx : length (nu_dofs st) = size;
  nv_i : forall p, nth p (nu_indices st) [] = map fst (ghosts_of rank p pre);
  nv_d : forall p, nth p (nu_dims st) [] = map (fun io => ow_dim (snd io)) (ghosts_of rank p pre);
  nv_e : forall p, nth p (nu_ents st) [] = map (fun io => ow_ent (snd io)) (ghosts_of rank p pre);
  nv_x : forall p, nth p (nu_dofs st) [] = map (fun io => ow_dof (snd io)) (ghosts_of rank p pre)
}.

Lemma ghosts_of_snoc rank p pre o : ghosts_of rank p (pre ++ [o]) =
  ghosts_of rank p pre ++ if (ow_rank o =? p) && negb (p =? rank) then [(length pre, o)] else [].
Proof.
  unfold ghosts_of. destruct (p =? rank); simpl; [now rewrite andb_false_r|].
  rewrite enumerate_snoc, filter_app. simpl. unfold owned_by. rewrite andb_true_r.
  destruct (ow_rank o =? p); reflexivity.
Qed.

Lemma number_dofs_spec rank size dm offset :
  length (dm_owner dm) = dm_size dm -> (forall o, In o (dm_owner dm) -> ow_rank o < size) ->
  exists st, number_dofs rank size dm offset = Ok st /\
    NumInv rank size offset (dm_size dm) (dm_owner dm) st.
Proof.
  intros Hlen Hlt. unfold number_dofs.
  destruct (foldM_inv (number_dof rank)
    (fun pre st => NumInv rank size offset (dm_size dm) (map snd pre) st)
    (enumerate (dm_owner dm))
    (mkNum (repeat 0 (dm_size dm)) offset (repeat [] size) (repeat [] size) (repeat [] size) (repeat [] size)))
    as (st & H1 & H2).
  - constructor; cbn [nu_global nu_next nu_indices nu_dims nu_ents nu_dofs map]; try apply repeat_length.
    + intros i. rewrite nth_repeat_any. unfold own_number. destruct i; reflexivity.
    + unfold count_owned. simpl. lia.
    + intros p. rewrite nth_repeat_any. unfold ghosts_of. destruct (p =? rank); reflexivity.
    + intros p. rewrite nth_repeat_any. unfold ghosts_of. destruct (p =? rank); reflexivity.
    + intros p. rewrite nth_repeat_any. unfold ghosts_of. destruct (p =? rank); reflexivity.
    + intros p. rewrite nth_repeat_any. unfold ghosts_of. destruct (p =? rank); reflexivity.
  - intros pre [i o] post s0 Hl I.
    assert (Hn : nth_error (enumerate (dm_owner dm)) (length pre) = Some (i, o)).
    { rewrite Hl, nth_error_app2 by lia. now rewrite Nat.sub_diag. }
    apply nth_error_enumerate in Hn. destruct Hn as [-> Ho].
    assert (Hpre : length (map snd pre) = length pre) by apply map_length.
    assert (Hin : In o (dm_owner dm)) by (eapply nth_error_In; eauto).
    assert (Hi : length pre < dm_size dm) by (rewrite <- Hlen; apply nth_error_Some; congruence).
    assert (Hfull : firstn (length pre) (map snd pre) = map snd pre) by (rewrite <- Hpre; apply firstn_all).
    rewrite map_app. cbn [map snd]. unfold number_dof.
    destruct (Nat.eqb_spec (ow_rank o) rank) as [Er|Er].
    + rewrite vset_lt by (rewrite (nv_len _ _ _ _ _ _ I); auto). cbn [bind].
      eexists. split; [reflexivity|].
      assert (Hb : owned_by rank o = true) by (unfold owned_by; now apply Nat.eqb_eq).
      assert (Hg : forall p, ghosts_of rank p (map snd pre ++ [o]) = ghosts_of rank p (map snd pre)).
      { intros p. rewrite ghosts_of_snoc. rewrite Er. rewrite (Nat.eqb_sym rank p).
        destruct (p =? rank); simpl; apply app_nil_r. }
      constructor; cbn [nu_global nu_next nu_indices nu_dims nu_ents nu_dofs]; try apply I;
        try (intros p; rewrite Hg; apply I).
      * rewrite length_set_nth. apply I.
      * intros j. rewrite nth_set_nth, (nv_len _ _ _ _ _ _ I). rewrite (proj2 (Nat.ltb_lt _ _) Hi), andb_true_r.
        destruct (Nat.eqb_spec (length pre) j) as [<-|Hne].
        -- unfold own_number. rewrite <- Hpre, nth_error_app_last, Hb.
           rewrite firstn_app, Nat.sub_diag. simpl. rewrite app_nil_r, firstn_all. apply I.
        -- rewrite (nv_global _ _ _ _ _ _ I). destruct (lt_dec j (length pre)) as [Hj|Hj].
           ++ symmetry. apply own_number_app. lia.
           ++ rewrite !own_number_out; auto; rewrite ?app_length; simpl; lia.
      * rewrite (nv_next _ _ _ _ _ _ I), count_owned_snoc, Hb. lia.
    + assert (Hr := Hlt o Hin).
      rewrite push_at_Ok by (rewrite (nv_li _ _ _ _ _ _ I); auto). cbn [bind].
      rewrite push_at_Ok by (rewrite (nv_ld _ _ _ _ _ _ I); auto). cbn [bind].
      rewrite push_at_Ok by (rewrite (nv_le _ _ _ _ _ _ I); auto). cbn [bind].
      rewrite push_at_Ok by (rewrite (nv_lx _ _ _ _ _ _ I); auto). cbn [bind].
      eexists. split; [reflexivity|].
      assert (Hb : owned_by rank o = false) by (unfold owned_by; now apply Nat.eqb_neq).
      assert (Hg : forall p, (ow_rank o =? p) && negb (p =? rank) = (ow_rank o =? p)).
      { intros p. destruct (Nat.eqb_spec (ow_rank o) p) as [<-|]; auto. simpl.
        rewrite (proj2 (Nat.eqb_neq _ _) Er). reflexivity. }
      constructor; cbn [nu_global nu_next nu_indices nu_dims nu_ents nu_dofs]; rewrite ?length_set_nth; try apply I.
      * intros j. rewrite (nv_global _ _ _ _ _ _ I). destruct (lt_dec j (length pre)) as [Hj|Hj].
        -- symmetry. apply own_number_app. lia.
        -- rewrite (own_number_out _ _ (map snd pre)) by lia. unfold own_number.
           destruct (Nat.eq_dec j (length pre)) as [->|].
           ++ rewrite <- Hpre, nth_error_app_last, Hb. reflexivity.
           ++ rewrite (proj2 (nth_error_None _ _)); auto. rewrite app_length. simpl. lia.
      * rewrite (nv_next _ _ _ _ _ _ I), count_owned_snoc, Hb. lia.
      * intros p. rewrite nth_push by (rewrite (nv_li _ _ _ _ _ _ I); auto).
        rewrite (nv_i _ _ _ _ _ _ I), ghosts_of_snoc, Hg, map_app. f_equal.
        destruct (ow_rank o =? p); auto. simpl. now rewrite Hpre.
      * intros p. rewrite nth_push by (rewrite (nv_ld _ _ _ _ _ _ I); auto).
        rewrite (nv_d _ _ _ _ _ _ I), ghosts_of_snoc, Hg, map_app. f_equal. destruct (ow_rank o =? p); auto.
      * intros p. rewrite nth_push by (rewrite (nv_le _ _ _ _ _ _ I); auto).
        rewrite (nv_e _ _ _ _ _ _ I), ghosts_of_snoc, Hg, map_app. f_equal. destruct (ow_rank o =? p); auto.
      * intros p. rewrite nth_push by (rewrite (nv_lx _ _ _ _ _ _ I); auto).
        rewrite (nv_x _ _ _ _ _ _ I), ghosts_of_snoc, Hg, map_app. f_equal. destruct (ow_rank o =? p); auto.
  - exists st. split; auto. now rewrite map_snd_enumerate in H2.
Qed.

Lemma In_ghosts_of r p owner i o :
  In (i, o) (ghosts_of r p owner) <-> p <> r /\ nth_error owner i = Some o /\ ow_rank o = p.
Proof.
  unfold ghosts_of. destruct (Nat.eqb_spec p r) as [->|Hne].
  - simpl. tauto.
  - rewrite filter_In, In_enumerate. unfold owned_by. simpl. rewrite Nat.eqb_eq. tauto.
Qed.
