(** * The scripts of [FunctionSpace::new] on [N] processes *)
From Verif Require Import Base BaseFacts Topology TopologyFacts DofMap DofMapFacts SpecDof DofMapResults
  Process ProcessFacts Space SpecSpace SpaceFacts.

Section Script.
Variables (N : nat) (g : nat -> grid) (fam : family) (dm : nat -> dofmap).
Hypothesis WD : wf_dist N g fam.
Hypothesis HD : dofmaps N g fam dm.

Definition owner (r : nat) : list owner_entry := dm_owner (dm r).
Definition nown (r : nat) : nat := count_owned r (owner r).
Definition off (r : nat) : nat := sum_list (map nown (seq 0 r)).

(** The number of a ghost on its owner. *)
Definition remote (o : owner_entry) : nat :=
  nth (ow_dof o) (edof (dm (ow_rank o)) (ow_dim o) (ow_ent o)) 0.
Definition gnum (r i : nat) : nat := own_number r (off r) (owner r) i.
Definition remote_global (o : owner_entry) : nat := gnum (ow_rank o) (remote o).

Lemma off_S r : off (S r) = off r + nown r.
Proof. unfold off. rewrite seq_S, map_app, sum_list_app. simpl. lia. Qed.

Lemma owner_len r : r < N -> length (owner r) = dm_size (dm r).
Proof. intros Hr. unfold owner. eapply owner_length; eauto using wd_grid, wd_fam. Qed.

(** Every owner entry comes from an entity. *)
Lemma owner_origin r i o : r < N -> nth_error (owner r) i = Some o ->
  exists d e k, nth_error (edof (dm r) d e) k = Some i /\ o = own_of r (g r) (d, e, k) /\
    exists c j, sub_at (g r) c d j e.
Proof.
  intros Hr Ho.
  assert (W := wd_grid _ _ _ WD r Hr). assert (WF := wd_fam _ _ _ WD r Hr). assert (HA := HD r Hr).
  assert (Hi : i < dm_size (dm r)) by (rewrite <- (owner_len r Hr); apply nth_error_Some; congruence).
  apply (listed_lt_iff r (g r) fam (dm r) W WF HA) in Hi. destruct Hi as (d & e & k & Hl).
  apply (listed_edof r (g r) fam (dm r) W WF HA) in Hl.
  exists d, e, k. split; auto. split.
  - assert (E := owner_spec r (g r) fam (dm r) W WF HA i d e k Hl). unfold owner in Ho. congruence.
  - destruct (the_inv r (g r) fam (dm r) W WF HA) as (tags & I).
    destruct (inv_from _ _ _ _ _ _ _ I d e) as (c & j & l & Hs & _).
    + intros E. rewrite E in Hl. destruct k; discriminate.
    + exists c, j. exact Hs.
Qed.

(** A ghost entry names an owned DOF of another process. *)
Lemma ghost_entry r i o : r < N -> nth_error (owner r) i = Some o -> ow_rank o <> r ->
  ow_rank o < N /\
  nth_error (edof (dm (ow_rank o)) (ow_dim o) (ow_ent o)) (ow_dof o) = Some (remote o) /\
  nth_error (owner (ow_rank o)) (remote o) = Some o /\
  remote o < dm_size (dm (ow_rank o)).
Proof.
  intros Hr Ho Hne. destruct (owner_origin r i o Hr Ho) as (d & e & k & Hk & Eo & c & j & Hs).
  unfold own_of in Eo.
  destruct (g_own (g r) d e) as [| |p x] eqn:Eg; try (subst o; simpl in Hne; congruence).
  destruct (wd_ghost _ _ _ WD r c d j e p x Hr Hs Eg) as (Hp & Hpr & Hown & c' & j' & Hs' & Hnd).
  subst o. cbn [ow_rank ow_dim ow_ent ow_dof] in *.
  assert (Wr := wd_grid _ _ _ WD r Hr). assert (WFr := wd_fam _ _ _ WD r Hr). assert (HAr := HD r Hr).
  assert (Wp := wd_grid _ _ _ WD p Hp). assert (WFp := wd_fam _ _ _ WD p Hp). assert (HAp := HD p Hp).
  assert (L1 := edof_length r (g r) fam (dm r) Wr WFr HAr c d j e Hs).
  assert (L2 := edof_length p (g p) fam (dm p) Wp WFp HAp c' d j' x Hs').
  assert (Hlt : k < length (edof (dm p) d x)).
  { rewrite L2, Hnd, <- L1. apply nth_error_Some. congruence. }
  assert (E1 : nth_error (edof (dm p) d x) k = Some (nth k (edof (dm p) d x) 0)) by (now apply nth_error_nth').
  split; auto. unfold remote. cbn [ow_rank ow_dim ow_ent ow_dof]. split; auto.
  assert (E2 := owner_spec p (g p) fam (dm p) Wp WFp HAp _ d x k E1).
  split.
  - unfold owner. rewrite E2. unfold own_of. destruct (g_own (g p) d x) eqn:E; auto. exfalso. eapply Hown; eauto.
  - eapply edof_size; eauto.
Qed.

Lemma owner_rank_lt r o : r < N -> In o (owner r) -> ow_rank o < N.
Proof.
  intros Hr Hin. apply In_nth_error in Hin. destruct Hin as (i & Hi).
  destruct (Nat.eq_dec (ow_rank o) r) as [->|Hne]; auto.
  now destruct (ghost_entry r i o Hr Hi Hne).
Qed.

Lemma entity_dof_remote r i o : r < N -> nth_error (owner r) i = Some o -> ow_rank o <> r ->
  entity_dof (dm (ow_rank o)) (ow_dim o) (ow_ent o) (ow_dof o) = Ok (remote o).
Proof.
  intros Hr Ho Hne. destruct (ghost_entry r i o Hr Ho Hne) as (Hp & He & _ & _).
  assert (Hl : listed (dm (ow_rank o)) (ow_dim o) (ow_ent o) (ow_dof o) (remote o)).
  { eapply listed_edof; eauto using wd_grid, wd_fam. }
  destruct Hl as (l & Hl & Hk). unfold get_local_dof_numbers in Hl. unfold entity_dof.
  apply bind_Ok_inv in Hl. destruct Hl as (row & H1 & H2). rewrite H1. cbn [bind]. rewrite H2. cbn [bind].
  now apply vget_Ok.
Qed.

Definition gl_of (r p : nat) := ghosts_of r p (owner r).

(** The scripts. *)
Definition requests (r p : nat) : list msg :=
  [MVec (map (fun io => ow_dim (snd io)) (gl_of r p));
   MVec (map (fun io => ow_ent (snd io)) (gl_of r p));
   MVec (map (fun io => ow_dof (snd io)) (gl_of r p))].
Definition replies (r p : nat) : list msg :=
  [MVec (map (fun io => remote (snd io)) (gl_of r p));
   MVec (map (fun io => remote_global (snd io)) (gl_of r p))].

Definition others (r : nat) : list nat := filter (fun p => negb (p =? r)) (seq 0 N).

Definition script_offset (r : nat) : list event :=
  (if r =? 0 then [] else [ER (r - 1) (MNum (off r)) (2 * (r - 1) + 1)]) ++
  (if r <? N - 1 then [ES (r + 1) (MNum (off (S r))) (2 * r)] else []).
Definition script_size (r : nat) : list event :=
  if r =? N - 1 then map (fun p => ES p (MNum (off N)) (2 * N)) (seq 0 r)
  else [ER (N - 1) (MNum (off N)) (2 * N + 1)].
Definition script_requests (r : nat) : list event :=
  flat_map (fun p => map (fun m => ES p m (2 * N + 2)) (requests r p)) (others r).
Definition script_serve (r : nat) : list event :=
  flat_map (fun p => map (fun m => ER p m (2 * N + 3)) (requests p r) ++
                     map (fun m => ES p m (2 * N + 3)) (replies p r)) (others r).
Definition script_replies (r : nat) : list event :=
  flat_map (fun p => map (fun m => ER p m (2 * N + 4)) (replies r p)) (others r).
Definition script (r : nat) : list event :=
  script_offset r ++ script_size r ++ script_requests r ++ script_serve r ++ script_replies r.

(** The space every process ends up with. *)
Definition final_number (r i : nat) : nat :=
  match nth_error (owner r) i with
  | Some o => if ow_rank o =? r then gnum r i else remote_global o
  | None => 0
  end.
Definition final_ownership (r i : nat) : ownership :=
  match nth_error (owner r) i with
  | Some o => if ow_rank o =? r then Owned else Ghost (ow_rank o) (remote o)
  | None => Owned
  end.
Definition final_space (r : nat) : space :=
  mkSpace (dm r) (off N) (map (final_number r) (seq 0 (dm_size (dm r))))
          (map (final_ownership r) (seq 0 (dm_size (dm r)))).

(** *** The loops *)

Lemma fold_right_others {A} (f : nat -> proc A -> proc A) r k l :
  fold_right (fun p k => if p =? r then k else f p k) k l =
  fold_right f k (filter (fun p => negb (p =? r)) l).
Proof. induction l as [|p t IH]; simpl; auto. destruct (p =? r); simpl; now rewrite IH. Qed.

Lemma others_In r p : In p (others r) <-> p < N /\ p <> r.
Proof.
  unfold others. rewrite filter_In, in_seq, negb_true_iff, Nat.eqb_neq. split; intros [? ?]; split; auto; lia.
Qed.

Lemma follows_send_all {A} p ms (k : proc A) s a key :
  follows k s a -> follows (fold_right (fun m k => Send p m k) k ms) (map (fun m => ES p m key) ms ++ s) a.
Proof. intros H. induction ms; simpl; auto. constructor. auto. Qed.

Lemma requests_follow r st k s a : r < N ->
  NumInv r N (off r) (dm_size (dm r)) (owner r) st ->
  follows k s a ->
  @follows space (send_requests r N st k) (script_requests r ++ s) a.
Proof.
  intros Hr I F. unfold send_requests, script_requests. rewrite fold_right_others. fold (others r).
  assert (Hin : forall p, In p (others r) -> p < N /\ p <> r) by apply others_In.
  induction (others r) as [|p t IH]; cbn [fold_right flat_map]; auto.
  assert (Hp : p < N) by (apply Hin; now left).
  rewrite (vget_nth _ _ []) by (rewrite (nv_ld _ _ _ _ _ _ I); auto).
  rewrite (vget_nth _ _ []) by (rewrite (nv_le _ _ _ _ _ _ I); auto).
  rewrite (vget_nth _ _ []) by (rewrite (nv_lx _ _ _ _ _ _ I); auto).
  cbn [local]. rewrite (nv_d _ _ _ _ _ _ I), (nv_e _ _ _ _ _ _ I), (nv_x _ _ _ _ _ _ I).
  cbn [map requests app]. do 3 constructor. apply IH. intros; apply Hin; now right.
Qed.

Lemma combine_maps {A B C} (f : A -> B) (h : A -> C) l :
  combine (map f l) (map h l) = map (fun x => (f x, h x)) l.
Proof. induction l; simpl; auto. now rewrite IHl. Qed.

Lemma In_gl_of r p io : In io (gl_of r p) -> p <> r /\ nth_error (owner r) (fst io) = Some (snd io) /\ ow_rank (snd io) = p.
Proof. destruct io as [i o]. apply In_ghosts_of. Qed.

Lemma serve_follow r st k s a : r < N ->
  NumInv r N (off r) (dm_size (dm r)) (owner r) st ->
  follows k s a ->
  @follows space (serve_requests r N (dm r) st k) (script_serve r ++ s) a.
Proof.
  intros Hr I F. unfold serve_requests, script_serve. rewrite fold_right_others. fold (others r).
  assert (Hin : forall p, In p (others r) -> p < N /\ p <> r) by apply others_In.
  induction (others r) as [|p t IH]; cbn [fold_right flat_map]; auto.
  destruct (Hin p (or_introl eq_refl)) as [Hp Hpr].
  unfold recv_vec at 1 2 3. cbn [map requests replies app].
  do 3 (constructor; cbn beta iota).
  rewrite !combine_maps.
  rewrite (mapM_Ok_all _ (fun x => nth (snd (snd x)) (edof (dm r) (fst x) (fst (snd x))) 0)).
  2:{ intros x Hx. apply in_map_iff in Hx. destruct Hx as ([i o] & <- & Hio). cbn [fst snd].
      apply In_gl_of in Hio. cbn [fst snd] in Hio. destruct Hio as (_ & Ho & Er).
      assert (E := entity_dof_remote p i o Hp Ho ltac:(congruence)). rewrite Er in E. rewrite E.
      unfold remote. now rewrite Er. }
  cbn [local]. rewrite map_map. cbn [fst snd].
  assert (Eloc : map (fun x : nat * owner_entry => nth (ow_dof (snd x)) (edof (dm r) (ow_dim (snd x)) (ow_ent (snd x))) 0) (gl_of p r)
               = map (fun io => remote (snd io)) (gl_of p r)).
  { apply map_ext_in. intros io Hio. apply In_gl_of in Hio. destruct Hio as (_ & _ & Er). unfold remote. now rewrite Er. }
  rewrite Eloc.
  rewrite (mapM_Ok_all _ (fun l => nth l (nu_global st) 0)).
  2:{ intros l Hl. apply in_map_iff in Hl. destruct Hl as ([i o] & <- & Hio).
      apply In_gl_of in Hio. cbn [fst snd] in *. destruct Hio as (_ & Ho & Er).
      apply vget_nth. rewrite (nv_len _ _ _ _ _ _ I). rewrite <- Er.
      apply (ghost_entry p i o Hp Ho). congruence. }
  cbn [local]. rewrite map_map.
  assert (Eglob : map (fun x : nat * owner_entry => nth (remote (snd x)) (nu_global st) 0) (gl_of p r)
                = map (fun io => remote_global (snd io)) (gl_of p r)).
  { apply map_ext_in. intros io Hio. apply In_gl_of in Hio. destruct Hio as (_ & _ & Er).
    unfold remote_global, gnum. rewrite Er. apply (nv_global _ _ _ _ _ _ I). }
  rewrite Eglob. do 2 constructor. apply IH. intros; apply Hin; now right.
Qed.

Lemma store_ghosts r p gl ow l :
  (forall io, In io l -> fst io < length gl) -> length ow = length gl ->
  exists gl' ow', foldM (store_ghost p) (map (fun io => (fst io, (remote (snd io), remote_global (snd io)))) l) (gl, ow) = Ok (gl', ow') /\
    length gl' = length gl /\ length ow' = length gl /\
    (forall i, ~ In i (map fst l) -> nth i gl' 0 = nth i gl 0 /\ nth i ow' Owned = nth i ow Owned) /\
    ((forall io, In io l -> nth_error (owner r) (fst io) = Some (snd io)) ->
     forall io, In io l -> nth (fst io) gl' 0 = remote_global (snd io) /\ nth (fst io) ow' Owned = Ghost p (remote (snd io))).
Proof.
  revert gl ow. induction l as [|[i o] t IH]; intros gl ow Hlt Hlen.
  - exists gl, ow. simpl. repeat split; auto; intros; contradiction.
  - cbn [map foldM fst snd].
    assert (Hi : i < length gl) by (apply (Hlt (i, o)); now left).
    assert (Es : store_ghost p (gl, ow) (i, (remote o, remote_global o)) =
                 Ok (set_nth gl i (remote_global o), set_nth ow i (Ghost p (remote o)))).
    { unfold store_ghost. cbn [fst snd]. rewrite vset_lt by auto. cbn [bind]. now rewrite vset_lt by lia. }
    rewrite Es. cbn [bind].
    destruct (IH (set_nth gl i (remote_global o)) (set_nth ow i (Ghost p (remote o)))) as (gl' & ow' & E & L1 & L2 & H1 & H2).
    { intros io Hio. rewrite length_set_nth. apply Hlt. now right. }
    { now rewrite !length_set_nth. }
    rewrite length_set_nth in L1, L2.
    exists gl', ow'. split; auto. split; auto. split; auto. split.
    + intros j Hj. simpl in Hj. destruct (H1 j) as [A B]; [tauto|]. rewrite A, B.
      rewrite !nth_set_nth. rewrite (proj2 (Nat.eqb_neq i j)) by tauto. auto.
    + intros Hown io [<-|Hio].
      * cbn [fst snd]. destruct (in_dec Nat.eq_dec i (map fst t)) as [Hin|Hin].
        -- apply in_map_iff in Hin. destruct Hin as (io & Ei & Hio).
           assert (Hoo : snd io = o).
           { assert (A := Hown io (or_intror Hio)). assert (B := Hown (i, o) (or_introl eq_refl)). cbn in B.
             rewrite Ei in A. congruence. }
           destruct (H2 (fun io H => Hown io (or_intror H)) io Hio) as [A B]. rewrite Ei, Hoo in *. auto.
        -- destruct (H1 i Hin) as [A B]. rewrite A, B, !nth_set_nth, Nat.eqb_refl.
           rewrite Hlen. rewrite (proj2 (Nat.ltb_lt _ _) Hi). auto.
      * apply H2; auto. intros io' Hio'. apply Hown. now right.
Qed.

(** The state of the last loop after the processes in [done]. *)
Record RecvInv (r : nat) (done : list nat) (gl : list nat) (ow : list ownership) : Prop := {
  rv_lg : length gl = dm_size (dm r);
  rv_lo : length ow = dm_size (dm r);
  rv_own : forall i o, nth_error (owner r) i = Some o -> ow_rank o = r ->
    nth i gl 0 = gnum r i /\ nth i ow Owned = Owned;
  rv_ghost : forall i o, nth_error (owner r) i = Some o -> ow_rank o <> r -> In (ow_rank o) done ->
    nth i gl 0 = remote_global o /\ nth i ow Owned = Ghost (ow_rank o) (remote o)
}.

Lemma replies_follow r st k s (a : space) : r < N ->
  NumInv r N (off r) (dm_size (dm r)) (owner r) st ->
  forall ps done gl ow, (forall p, In p ps -> p < N) -> RecvInv r done gl ow ->
  (forall gl' ow', RecvInv r (done ++ ps) gl' ow' -> follows (k gl' ow') s a) ->
  follows (receive_ghosts r st ps gl ow k)
    (flat_map (fun p => map (fun m => ER p m (2 * N + 4)) (replies r p)) (filter (fun p => negb (p =? r)) ps) ++ s) a.
Proof.
  intros Hr I. induction ps as [|p t IH]; intros done gl ow Hps R F; cbn [receive_ghosts filter].
  - simpl. apply F. now rewrite app_nil_r.
  - destruct (Nat.eqb_spec p r) as [->|Hpr]; cbn [negb].
    + apply (IH (done ++ [r])).
      * intros; apply Hps; now right.
      * destruct R as [R1 R2 R3 R4]. constructor; auto. intros i o Ho Hne Hin. apply R4; auto.
        apply in_app_or in Hin. destruct Hin as [|[->|[]]]; auto. congruence.
      * intros gl' ow'. rewrite <- app_assoc. apply F.
    + cbn [flat_map replies map app]. unfold recv_vec at 1 2.
      do 2 (constructor; cbn beta iota).
      rewrite (vget_nth _ _ []) by (rewrite (nv_li _ _ _ _ _ _ I); apply Hps; now left).
      cbn [local]. rewrite (nv_i _ _ _ _ _ _ I). fold (gl_of r p). rewrite !combine_maps.
      destruct (store_ghosts r p gl ow (gl_of r p)) as (gl' & ow' & E & L1 & L2 & H1 & H2).
      { intros io Hio. apply In_gl_of in Hio. destruct Hio as (_ & Ho & _).
        rewrite (rv_lg _ _ _ _ R), <- (owner_len r Hr). apply nth_error_Some. congruence. }
      { rewrite (rv_lg _ _ _ _ R). apply (rv_lo _ _ _ _ R). }
      rewrite E. cbn [local fst snd]. apply (IH (done ++ [p])).
      * intros; apply Hps; now right.
      * assert (Hg : forall i o, nth_error (owner r) i = Some o -> ow_rank o = p -> In (i, o) (gl_of r p)).
        { intros i o Ho Er. apply In_ghosts_of. auto. }
        assert (Hng : forall i o, nth_error (owner r) i = Some o -> ow_rank o <> p -> ~ In i (map fst (gl_of r p))).
        { intros i o Ho Er Hin. apply in_map_iff in Hin. destruct Hin as ([j o'] & Ej & Hio). cbn in Ej. subst j.
          apply In_gl_of in Hio. cbn [fst snd] in Hio. destruct Hio as (_ & Ho' & Er'). congruence. }
        constructor.
        -- rewrite L1. apply R.
        -- rewrite L2. apply R.
        -- intros i o Ho Er. destruct (H1 i (Hng i o Ho ltac:(congruence))) as [A B]. rewrite A, B.
           now apply (rv_own _ _ _ _ R i o).
        -- intros i o Ho Er Hin. destruct (Nat.eq_dec (ow_rank o) p) as [Ep|Ep].
           ++ destruct (H2 ltac:(intros io Hio; now apply In_gl_of in Hio) (i, o) (Hg i o Ho Ep)) as [A B].
              cbn [fst snd] in A, B. rewrite A, B, Ep. auto.
           ++ destruct (H1 i (Hng i o Ho Ep)) as [A B]. rewrite A, B. apply (rv_ghost _ _ _ _ R i o); auto.
              apply in_app_or in Hin. destruct Hin as [|[->|[]]]; auto. congruence.
      * intros gl2 ow2. rewrite <- app_assoc. apply F.
Qed.

Lemma nth_map_seq {A} (f : nat -> A) n i d : i < n -> nth i (map f (seq 0 n)) d = f i.
Proof.
  intros H. rewrite (nth_indep _ d (f 0)) by (rewrite map_length, seq_length; auto).
  rewrite map_nth, seq_nth by auto. reflexivity.
Qed.

Lemma ghosts_part r st gs : r < N ->
  NumInv r N (off r) (dm_size (dm r)) (owner r) st ->
  follows (send_requests r N st (serve_requests r N (dm r) st
    (receive_ghosts r st (seq 0 N) (nu_global st) (repeat Owned (dm_size (dm r)))
      (fun gl ow => Ret (mkSpace (dm r) gs gl ow)))))
    (script_requests r ++ script_serve r ++ script_replies r)
    (mkSpace (dm r) gs (map (final_number r) (seq 0 (dm_size (dm r)))) (map (final_ownership r) (seq 0 (dm_size (dm r))))).
Proof.
  intros Hr I. apply requests_follow; auto. apply serve_follow; auto.
  unfold script_replies, others. rewrite <- (app_nil_r (flat_map _ _)).
  apply (replies_follow r st _ _ _ Hr I _ []).
  - intros p Hp. apply in_seq in Hp. lia.
  - constructor.
    + apply I.
    + apply repeat_length.
    + intros i o Ho Er. rewrite nth_repeat_any. split; auto. apply (nv_global _ _ _ _ _ _ I).
    + intros i o _ _ [].
  - intros gl ow R. cbn [app] in R.
    assert (Eg : gl = map (final_number r) (seq 0 (dm_size (dm r)))).
    { apply (nth_ext _ _ 0 0); [rewrite map_length, seq_length; apply R|]. intros i Hi. rewrite (rv_lg _ _ _ _ R) in Hi.
      rewrite nth_map_seq by auto. unfold final_number.
      destruct (nth_error (owner r) i) as [o|] eqn:Ho; [|apply nth_error_None in Ho; rewrite owner_len in Ho by auto; lia].
      destruct (Nat.eqb_spec (ow_rank o) r) as [Er|Er].
      - now apply (rv_own _ _ _ _ R i o).
      - apply (rv_ghost _ _ _ _ R i o); auto. apply in_seq. split; [lia|]. simpl.
        apply (owner_rank_lt r); auto. eapply nth_error_In; eauto. }
    assert (Eo : ow = map (final_ownership r) (seq 0 (dm_size (dm r)))).
    { apply (nth_ext _ _ Owned Owned); [rewrite map_length, seq_length; apply R|]. intros i Hi. rewrite (rv_lo _ _ _ _ R) in Hi.
      rewrite nth_map_seq by auto. unfold final_ownership.
      destruct (nth_error (owner r) i) as [o|] eqn:Ho; [|apply nth_error_None in Ho; rewrite owner_len in Ho by auto; lia].
      destruct (Nat.eqb_spec (ow_rank o) r) as [Er|Er].
      - now apply (rv_own _ _ _ _ R i o).
      - apply (rv_ghost _ _ _ _ R i o); auto. apply in_seq. split; [lia|]. simpl.
        apply (owner_rank_lt r); auto. eapply nth_error_In; eauto. }
    rewrite Eg, Eo. constructor.
Qed.

Lemma number_ok r : r < N ->
  exists st, number_dofs r N (dm r) (off r) = Ok st /\ NumInv r N (off r) (dm_size (dm r)) (owner r) st.
Proof.
  intros Hr. apply number_dofs_spec.
  - now apply owner_len.
  - intros o Ho. now apply (owner_rank_lt r).
Qed.

Lemma size_part r st : r < N ->
  NumInv r N (off r) (dm_size (dm r)) (owner r) st ->
  follows (exchange r N (dm r) st)
    ((if r <? N - 1 then [ES (r + 1) (MNum (off (S r))) (2 * r)] else []) ++
     script_size r ++ script_requests r ++ script_serve r ++ script_replies r) (final_space r).
Proof.
  intros Hr I. unfold exchange.
  assert (En : nu_next st = off (S r)) by (rewrite (nv_next _ _ _ _ _ _ I), off_S; reflexivity).
  assert (G : follows (if r =? N - 1 then
      fold_right (fun p k => Send p (MNum (nu_next st)) k)
        (send_requests r N st (serve_requests r N (dm r) st
          (receive_ghosts r st (seq 0 N) (nu_global st) (repeat Owned (dm_size (dm r)))
             (fun gl ow => Ret (mkSpace (dm r) (nu_next st) gl ow))))) (seq 0 r)
      else recv_num (N - 1) (fun gs => send_requests r N st (serve_requests r N (dm r) st
          (receive_ghosts r st (seq 0 N) (nu_global st) (repeat Owned (dm_size (dm r)))
             (fun gl ow => Ret (mkSpace (dm r) gs gl ow))))))
     (script_size r ++ script_requests r ++ script_serve r ++ script_replies r) (final_space r)).
  { unfold script_size. destruct (Nat.eqb_spec r (N - 1)) as [E|E].
    - rewrite En. replace (S r) with N by lia.
      assert (Hf := ghosts_part r st (off N) Hr I).
      induction (seq 0 r) as [|p t IH]; cbn [map fold_right app]; [exact Hf|]. constructor. exact IH.
    - unfold recv_num. cbn [app]. constructor. cbn beta iota. apply ghosts_part; auto. }
  destruct (r <? N - 1) eqn:El; cbn [app].
  - rewrite En at 1. constructor. exact G.
  - exact G.
Qed.

Lemma fs_new_follows r : r < N -> follows (fs_new r N (dm r)) (script r) (final_space r).
Proof.
  intros Hr. destruct (number_ok r Hr) as (st & E & I). unfold script, script_offset, fs_new.
  rewrite <- !app_assoc.
  destruct (Nat.eqb_spec r 0) as [E0|E0]; cbn [app].
  - assert (Eo : off r = 0) by (rewrite E0; reflexivity). rewrite <- Eo at 1. rewrite E. cbn [local]. now apply size_part.
  - unfold recv_num. constructor. cbn beta iota. rewrite E. cbn [local]. now apply size_part.
Qed.

(** *** The scripts match *)

Lemma flat_map_pick {B} (f : nat -> list B) q l :
  NoDup l -> In q l -> flat_map (fun p => if p =? q then f p else []) l = f q.
Proof.
  induction l as [|x t IH]; intros Hn Hin; [destruct Hin|]. inversion Hn; subst. cbn [flat_map].
  destruct (Nat.eqb_spec x q) as [->|Hne].
  - rewrite flat_map_nil_all; [apply app_nil_r|]. intros y Hy. destruct (Nat.eqb_spec y q); auto. subst. tauto.
  - destruct Hin as [->|Hin]; [congruence|]. simpl. auto.
Qed.

Lemma NoDup_others r : NoDup (others r).
Proof. apply NoDup_filter, seq_NoDup. Qed.

Lemma sends_to_flat q (f : nat -> list event) l :
  sends_to q (flat_map f l) = flat_map (fun p => sends_to q (f p)) l.
Proof. induction l; simpl; auto. now rewrite sends_to_app, IHl. Qed.

Lemma recvs_from_flat q (f : nat -> list event) l :
  recvs_from q (flat_map f l) = flat_map (fun p => recvs_from q (f p)) l.
Proof. induction l; simpl; auto. now rewrite recvs_from_app, IHl. Qed.

Lemma sends_to_ES q p key ms : sends_to q (map (fun m => ES p m key) ms) = if p =? q then map (fun m => (m, key)) ms else [].
Proof. induction ms; simpl; destruct (p =? q) eqn:E; auto; now rewrite IHms. Qed.
Lemma sends_to_ER q p key ms : sends_to q (map (fun m => ER p m key) ms) = [].
Proof. induction ms; simpl; auto. Qed.
Lemma recvs_from_ER q p key ms : recvs_from q (map (fun m => ER p m key) ms) = if p =? q then map (fun m => (m, key)) ms else [].
Proof. induction ms; simpl; destruct (p =? q) eqn:E; auto; now rewrite IHms. Qed.
Lemma recvs_from_ES q p key ms : recvs_from q (map (fun m => ES p m key) ms) = [].
Proof. induction ms; simpl; auto. Qed.

Lemma sends_script r q : r < N -> q < N -> q <> r ->
  sends_to q (script r) =
    (if (r <? N - 1) && (r + 1 =? q) then [(MNum (off (S r)), 2 * r)] else []) ++
    (if (r =? N - 1) then [(MNum (off N), 2 * N)] else []) ++
    map (fun m => (m, 2 * N + 2)) (requests r q) ++
    map (fun m => (m, 2 * N + 3)) (replies q r).
Proof.
  intros Hr Hq Hne. unfold script. rewrite !sends_to_app.
  assert (Ho : In q (others r)) by (apply others_In; auto).
  f_equal; [|f_equal; [|f_equal]].
  - unfold script_offset. rewrite sends_to_app. destruct (r =? 0); cbn [sends_to app];
      (destruct (r <? N - 1); cbn [sends_to andb]; auto).
  - unfold script_size. destruct (Nat.eqb_spec r (N - 1)) as [E|E]; [|reflexivity].
    assert (Hin : In q (seq 0 r)) by (apply in_seq; lia).
    assert (Hn : NoDup (seq 0 r)) by apply seq_NoDup.
    replace (map (fun p => ES p (MNum (off N)) (2 * N)) (seq 0 r))
      with (flat_map (fun p => map (fun m => ES p m (2 * N)) [MNum (off N)]) (seq 0 r))
      by (induction (seq 0 r); simpl; auto; now rewrite IHl by (simpl in *; auto)).
    rewrite sends_to_flat.
    erewrite flat_map_ext_in; [|intros p Hp; apply sends_to_ES].
    rewrite (flat_map_pick (fun _ => map (fun m => (m, 2 * N)) [MNum (off N)])); auto.
  - unfold script_requests. rewrite sends_to_flat.
    erewrite flat_map_ext_in; [|intros p Hp; apply sends_to_ES].
    rewrite (flat_map_pick (fun p => map (fun m => (m, 2 * N + 2)) (requests r p))); auto using NoDup_others.
  - assert (E : sends_to q (script_replies r) = []).
    { unfold script_replies. rewrite sends_to_flat. apply flat_map_nil_all. intros; apply sends_to_ER. }
    rewrite E, app_nil_r. unfold script_serve. rewrite sends_to_flat.
    erewrite flat_map_ext_in; [|intros p Hp; rewrite sends_to_app, sends_to_ER, sends_to_ES; cbn [app]; reflexivity].
    rewrite (flat_map_pick (fun p => map (fun m => (m, 2 * N + 3)) (replies p r))); auto using NoDup_others.
Qed.

Lemma recvs_script r q : r < N -> q < N -> q <> r ->
  recvs_from r (script q) =
    (if negb (q =? 0) && (q - 1 =? r) then [(MNum (off q), 2 * (q - 1) + 1)] else []) ++
    (if negb (q =? N - 1) && (N - 1 =? r) then [(MNum (off N), 2 * N + 1)] else []) ++
    map (fun m => (m, 2 * N + 3)) (requests r q) ++
    map (fun m => (m, 2 * N + 4)) (replies q r).
Proof.
  intros Hr Hq Hne. unfold script. rewrite !recvs_from_app.
  assert (Ho : In r (others q)) by (apply others_In; auto).
  f_equal; [|f_equal].
  - unfold script_offset. rewrite recvs_from_app. destruct (q =? 0); cbn [recvs_from app negb andb];
      (destruct (q <? N - 1); cbn [recvs_from andb]; rewrite ?app_nil_r; auto).
  - unfold script_size. destruct (Nat.eqb_spec q (N - 1)) as [E|E]; cbn [negb andb]; [|reflexivity].
    induction (seq 0 q); simpl; auto.
  - assert (E : recvs_from r (script_requests q) = []).
    { unfold script_requests. rewrite recvs_from_flat. apply flat_map_nil_all. intros; apply recvs_from_ES. }
    rewrite E. cbn [app]. f_equal.
    + unfold script_serve. rewrite recvs_from_flat.
      erewrite flat_map_ext_in; [|intros p Hp; rewrite recvs_from_app, recvs_from_ER, recvs_from_ES, app_nil_r; reflexivity].
      rewrite (flat_map_pick (fun p => map (fun m => (m, 2 * N + 3)) (requests p q))); auto using NoDup_others.
    + unfold script_replies. rewrite recvs_from_flat.
      erewrite flat_map_ext_in; [|intros p Hp; apply recvs_from_ER].
      rewrite (flat_map_pick (fun p => map (fun m => (m, 2 * N + 4)) (replies q p))); auto using NoDup_others.
Qed.

Lemma Forall2_keys k ms : Forall2 paired (map (fun m => (m, k)) ms) (map (fun m => (m, S k)) ms).
Proof. induction ms; simpl; constructor; auto. split; auto. Qed.

Lemma scripts_match r q : r < N -> q < N -> Forall2 paired (sends_to q (script r)) (recvs_from r (script q)).
Proof.
  intros Hr Hq. destruct (Nat.eq_dec q r) as [->|Hne].
  - (* nobody talks to itself *)
    assert (Hs : sends_to r (script r) = []).
    { unfold script. rewrite !sends_to_app. unfold script_offset, script_size, script_requests, script_serve, script_replies.
      rewrite !sends_to_app, !sends_to_flat.
      assert (E1 : forall (f : nat -> list event), (forall p, p <> r -> sends_to r (f p) = []) ->
                 flat_map (fun p => sends_to r (f p)) (others r) = []).
      { intros f Hf. apply flat_map_nil_all. intros p Hp. apply Hf. now apply others_In in Hp. }
      rewrite !E1.
      - rewrite !app_nil_r. destruct (r =? 0); cbn [sends_to app];
        (destruct (r <? N - 1); cbn [sends_to app];
         rewrite ?(proj2 (Nat.eqb_neq (r + 1) r)) by lia;
         (destruct (r =? N - 1); cbn [sends_to]; auto;
          assert (Hm : forall l, (forall p, In p l -> p < r) -> sends_to r (map (fun p => ES p (MNum (off N)) (2 * N)) l) = [])
            by (induction l as [|x l IHl]; simpl; intros Hl; auto;
                rewrite (proj2 (Nat.eqb_neq x r)) by (assert (x < r) by auto; lia); auto);
          apply Hm; intros p Hp; apply in_seq in Hp; lia)).
      - intros p Hp. apply sends_to_ER.
      - intros p Hp. rewrite sends_to_app, sends_to_ER, sends_to_ES. now rewrite (proj2 (Nat.eqb_neq p r)).
      - intros p Hp. rewrite sends_to_ES. now rewrite (proj2 (Nat.eqb_neq p r)). }
    assert (Hv : recvs_from r (script r) = []).
    { unfold script. rewrite !recvs_from_app. unfold script_offset, script_size, script_requests, script_serve, script_replies.
      rewrite !recvs_from_app, !recvs_from_flat.
      assert (E1 : forall (f : nat -> list event), (forall p, p <> r -> recvs_from r (f p) = []) ->
                 flat_map (fun p => recvs_from r (f p)) (others r) = []).
      { intros f Hf. apply flat_map_nil_all. intros p Hp. apply Hf. now apply others_In in Hp. }
      rewrite !E1.
      - rewrite !app_nil_r.
        destruct (Nat.eqb_spec r 0) as [E0|E0]; cbn [recvs_from app];
          rewrite ?(proj2 (Nat.eqb_neq (r - 1) r)) by lia;
        (destruct (r <? N - 1); cbn [recvs_from app];
         (destruct (Nat.eqb_spec r (N - 1)) as [E|E]; cbn [recvs_from];
           [induction (seq 0 r); simpl; auto|rewrite (proj2 (Nat.eqb_neq (N - 1) r)) by lia; auto])).
      - intros p Hp. rewrite recvs_from_ER. now rewrite (proj2 (Nat.eqb_neq p r)).
      - intros p Hp. rewrite recvs_from_app, recvs_from_ER, recvs_from_ES. now rewrite (proj2 (Nat.eqb_neq p r)).
      - intros p Hp. apply recvs_from_ES. }
    rewrite Hs, Hv. constructor.
  - rewrite sends_script, recvs_script by auto.
    apply Forall2_app; [|apply Forall2_app; [|apply Forall2_app]].
    + assert (Eb : (r <? N - 1) && (r + 1 =? q) = negb (q =? 0) && (q - 1 =? r)).
      { destruct (Nat.ltb_spec r (N - 1)), (Nat.eqb_spec (r + 1) q), (Nat.eqb_spec q 0), (Nat.eqb_spec (q - 1) r); simpl; auto; lia. }
      rewrite Eb. destruct (negb (q =? 0) && (q - 1 =? r)) eqn:E; constructor; auto.
      apply andb_prop in E. destruct E as [E1 E2]. apply negb_true_iff, Nat.eqb_neq in E1. apply Nat.eqb_eq in E2.
      split; cbn [fst snd]; [|lia]. f_equal. f_equal. lia.
    + assert (Eb : (r =? N - 1) = negb (q =? N - 1) && (N - 1 =? r)).
      { destruct (Nat.eqb_spec r (N - 1)), (Nat.eqb_spec q (N - 1)), (Nat.eqb_spec (N - 1) r); simpl; auto; lia. }
      rewrite Eb. destruct (negb (q =? N - 1) && (N - 1 =? r)); constructor; auto.
      split; cbn [fst snd]; auto. lia.
    + replace (2 * N + 3) with (S (2 * N + 2)) by lia. apply Forall2_keys.
    + replace (2 * N + 4) with (S (2 * N + 3)) by lia. apply Forall2_keys.
Qed.

Definition keys_in (a b : nat) (s : list event) : Prop := forall e, In e s -> a <= ev_key e <= b.

Lemma sorted_app s1 s2 m : sorted s1 -> sorted s2 ->
  (forall e, In e s1 -> ev_key e <= m) -> (forall e, In e s2 -> m <= ev_key e) -> sorted (s1 ++ s2).
Proof.
  induction s1 as [|x t IH]; simpl; auto. intros [H1 H2] S2 L1 L2. split.
  - intros e He. apply in_app_or in He. destruct He as [He|He]; auto.
    assert (A := L1 x (or_introl eq_refl)). assert (B := L2 e He). lia.
  - apply IH; auto.
Qed.

Lemma sorted_const s k : (forall e, In e s -> ev_key e = k) -> sorted s.
Proof.
  induction s as [|x t IH]; simpl; auto. intros H. split; auto.
  intros e He. rewrite (H x), (H e); auto.
Qed.

Lemma script_sorted r : r < N -> sorted (script r).
Proof.
  intros Hr. unfold script.
  assert (K3 : forall e, In e (script_requests r) -> ev_key e = 2 * N + 2).
  { intros e He. unfold script_requests in He. apply in_flat_map in He. destruct He as (p & _ & He).
    apply in_map_iff in He. destruct He as (m & <- & _). reflexivity. }
  assert (K4 : forall e, In e (script_serve r) -> ev_key e = 2 * N + 3).
  { intros e He. unfold script_serve in He. apply in_flat_map in He. destruct He as (p & _ & He).
    apply in_app_or in He. destruct He as [He|He]; apply in_map_iff in He; destruct He as (m & <- & _); reflexivity. }
  assert (K5 : forall e, In e (script_replies r) -> ev_key e = 2 * N + 4).
  { intros e He. unfold script_replies in He. apply in_flat_map in He. destruct He as (p & _ & He).
    apply in_map_iff in He. destruct He as (m & <- & _). reflexivity. }
  assert (K2 : forall e, In e (script_size r) -> 2 * N <= ev_key e <= 2 * N + 1).
  { intros e He. unfold script_size in He. destruct (r =? N - 1).
    - apply in_map_iff in He. destruct He as (m & <- & _). cbn [ev_key]. lia.
    - destruct He as [<-|[]]. cbn [ev_key]. lia. }
  assert (K1 : forall e, In e (script_offset r) -> ev_key e <= 2 * N).
  { intros e He. unfold script_offset in He. apply in_app_or in He. destruct He as [He|He].
    - destruct (r =? 0); [destruct He|]. destruct He as [<-|[]]. cbn [ev_key]. lia.
    - destruct (r <? N - 1); [|destruct He]. destruct He as [<-|[]]. cbn [ev_key]. lia. }
  apply (sorted_app _ _ (2 * N)).
  - unfold script_offset. destruct (Nat.eqb_spec r 0); cbn [app];
      (destruct (r <? N - 1); cbn [sorted app]; auto); repeat split; simpl; auto; try tauto.
    intros e [<-|[]]. cbn [ev_key]. lia.
  - apply (sorted_app _ _ (2 * N + 1)).
    + unfold script_size. destruct (r =? N - 1).
      * apply (sorted_const _ (2 * N)). intros e He. apply in_map_iff in He. destruct He as (m & <- & _). reflexivity.
      * simpl. tauto.
    + apply (sorted_app _ _ (2 * N + 2)).
      * apply (sorted_const _ _ K3).
      * apply (sorted_app _ _ (2 * N + 3)).
        -- apply (sorted_const _ _ K4).
        -- apply (sorted_const _ _ K5).
        -- intros e He. rewrite (K4 e He). lia.
        -- intros e He. rewrite (K5 e He). lia.
      * intros e He. rewrite (K3 e He). lia.
      * intros e He. apply in_app_or in He. destruct He as [He|He]; [rewrite (K4 e He)|rewrite (K5 e He)]; lia.
    + intros e He. apply (K2 e He).
    + intros e He. apply in_app_or in He. destruct He as [He|He]; [rewrite (K3 e He); lia|].
      apply in_app_or in He. destruct He as [He|He]; [rewrite (K4 e He)|rewrite (K5 e He)]; lia.
  - exact K1.
  - intros e He. apply in_app_or in He. destruct He as [He|He]; [apply (K2 e He)|].
    apply in_app_or in He. destruct He as [He|He]; [rewrite (K3 e He); lia|].
    apply in_app_or in He. destruct He as [He|He]; [rewrite (K4 e He)|rewrite (K5 e He)]; lia.
Qed.

Lemma script_peer r e : r < N -> In e (script r) -> ev_peer e < N /\ ev_peer e <> r.
Proof.
  intros Hr He. unfold script in He.
  assert (Ho : forall p, In p (others r) -> p < N /\ p <> r) by apply others_In.
  apply in_app_or in He. destruct He as [He|He].
  { unfold script_offset in He. apply in_app_or in He. destruct He as [He|He].
    - destruct (Nat.eqb_spec r 0); [destruct He|]. destruct He as [<-|[]]. cbn [ev_peer]. lia.
    - destruct (Nat.ltb_spec r (N - 1)); [|destruct He]. destruct He as [<-|[]]. cbn [ev_peer]. lia. }
  apply in_app_or in He. destruct He as [He|He].
  { unfold script_size in He. destruct (Nat.eqb_spec r (N - 1)).
    - apply in_map_iff in He. destruct He as (p & <- & Hp). apply in_seq in Hp. cbn [ev_peer]. lia.
    - destruct He as [<-|[]]. cbn [ev_peer]. lia. }
  apply in_app_or in He. destruct He as [He|He].
  { unfold script_requests in He. apply in_flat_map in He. destruct He as (p & Hp & He).
    apply in_map_iff in He. destruct He as (m & <- & _). cbn [ev_peer]. auto. }
  apply in_app_or in He. destruct He as [He|He].
  { unfold script_serve in He. apply in_flat_map in He. destruct He as (p & Hp & He).
    apply in_app_or in He. destruct He as [He|He]; apply in_map_iff in He; destruct He as (m & <- & _); cbn [ev_peer]; auto. }
  unfold script_replies in He. apply in_flat_map in He. destruct He as (p & Hp & He).
  apply in_map_iff in He. destruct He as (m & <- & _). cbn [ev_peer]. auto.
Qed.

Lemma start_inv : NInv N final_space script (start N dm).
Proof.
  constructor.
  - intros r Hr. cbn. now apply fs_new_follows.
  - apply script_sorted.
  - apply script_peer.
  - intros r q Hr Hq. exists []. split; auto. cbn [app]. now apply scripts_match.
Qed.

Lemma creates_unique eager sp : creates N eager dm sp -> forall r, r < N -> sp r = final_space r.
Proof.
  intros (n & s & H & F) r Hr.
  destruct (NInv_steps N eager final_space script (start N dm) n s start_inv H) as (rest & I & _).
  destruct (NInv_ret N final_space rest s r (sp r) I Hr (F r Hr)) as [E _]. exact E.
Qed.

Lemma eager_outcome eager :
  (forall r q m key, r < N -> In (ES q m key) (script r) -> eager m = true) ->
  forall n s, steps N eager n (start N dm) s ->
  n <= remaining N script /\
  (forall r, r < N -> n_proc s r <> Crash) /\
  ((finished N s final_space /\ forall r q, r < N -> q < N -> n_chan s r q = []) \/ exists s', step N eager s s').
Proof.
  intros He n s H.
  destruct (NInv_steps N eager final_space script (start N dm) n s start_inv H) as (rest & I & L & Hi).
  split; [lia|]. split; [intros r Hr; eapply NInv_no_crash; eauto|].
  destruct (NInv_progress N eager final_space rest s) as [Hd|Hs]; auto.
  - intros r q m key Hr Hin. eapply He; eauto.
  - left. eapply NInv_finished; eauto.
Qed.

Lemma run_to_end eager :
  (forall r q m key, r < N -> In (ES q m key) (script r) -> eager m = true) ->
  forall fuel n s, steps N eager n (start N dm) s -> remaining N script <= n + fuel ->
  exists n' s', steps N eager n' (start N dm) s' /\ finished N s' final_space.
Proof.
  intros He. induction fuel as [|fuel IH]; intros n s H L;
    destruct (eager_outcome eager He n s H) as (B & _ & [[F _]|[s' Hs]]); eauto.
  - assert (H' : steps N eager (S n) (start N dm) s') by (econstructor; eauto).
    destruct (eager_outcome eager He _ _ H') as (B' & _). lia.
  - assert (H' : steps N eager (S n) (start N dm) s') by (econstructor; eauto).
    apply (IH (S n) s' H'). lia.
Qed.

Lemma eager_completes eager :
  (forall r q m key, r < N -> In (ES q m key) (script r) -> eager m = true) ->
  creates N eager dm final_space.
Proof.
  intros He.
  destruct (run_to_end eager He (remaining N script) 0 (start N dm)) as (n & s & H & F); [constructor|lia|].
  exists n, s. auto.
Qed.

(** All messages of the scripts. *)
Lemma script_messages r q m key : r < N -> In (ES q m key) (script r) ->
  (exists n, m = MNum n) \/ exists l p p', p < N /\ p' < N /\ m = MVec l /\ length l = length (gl_of p p').
Proof.
  intros Hr He. unfold script in He.
  apply in_app_or in He. destruct He as [He|He].
  { left. unfold script_offset in He. apply in_app_or in He. destruct He as [He|He].
    - destruct (r =? 0); [destruct He|]. destruct He as [E|[]]. discriminate.
    - destruct (r <? N - 1); [|destruct He]. destruct He as [E|[]]. inversion E. eauto. }
  apply in_app_or in He. destruct He as [He|He].
  { left. unfold script_size in He. destruct (r =? N - 1).
    - apply in_map_iff in He. destruct He as (p & E & _). inversion E. eauto.
    - destruct He as [E|[]]. discriminate. }
  right.
  apply in_app_or in He. destruct He as [He|He].
  { unfold script_requests in He. apply in_flat_map in He. destruct He as (p & Hp & He). apply others_In in Hp.
    apply in_map_iff in He. destruct He as (m' & E & Hm). inversion E; subst.
    destruct Hm as [<-|[<-|[<-|[]]]]; eexists; exists r, q; (split; [auto|split; [apply Hp|split; [reflexivity|apply map_length]]]). }
  apply in_app_or in He. destruct He as [He|He].
  { unfold script_serve in He. apply in_flat_map in He. destruct He as (p & Hp & He). apply others_In in Hp.
    apply in_app_or in He. destruct He as [He|He]; apply in_map_iff in He; destruct He as (m' & E & Hm); inversion E; subst.
    destruct Hm as [<-|[<-|[]]]; eexists; exists q, r; (split; [apply Hp|split; [auto|split; [reflexivity|apply map_length]]]). }
  unfold script_replies in He. apply in_flat_map in He. destruct He as (p & Hp & He).
  apply in_map_iff in He. destruct He as (m' & E & _). discriminate.
Qed.

Lemma requests_stuck eager (S : nat -> Prop) :
  (forall r, S r -> r < N) ->
  (forall r, S r -> exists p, S p /\ p <> r /\ forall l, length l = length (gl_of r p) -> eager (MVec l) = false) ->
  forall n s, steps N eager n (start N dm) s -> forall r a, S r -> n_proc s r <> Ret a.
Proof.
  intros HS Hreq n s H r a Hr E.
  destruct (rendezvous_stuck N eager final_space (2 * N + 2) S HS script (start N dm) n s) as (rest & I & HK); auto.
  - apply start_inv.
  - intros x Hx. destruct (Hreq x Hx) as (p & Hp & Hne & He). exists p. eexists. split; [auto|]. split; [apply He|].
    2:{ unfold script. apply in_or_app. right. apply in_or_app. right. apply in_or_app. left.
        unfold script_requests. apply in_flat_map. exists p. split.
        - apply others_In. split; auto.
        - cbn [requests map]. now left. }
    apply map_length.
  - destruct (NInv_ret N final_space rest s r a I (HS r Hr) E) as [_ Er].
    destruct (HK r Hr) as (q & m & _ & _ & Hin). rewrite Er in Hin. destruct Hin.
Qed.
End Script.
