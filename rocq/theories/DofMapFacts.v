(** * Correctness of the DOF map *)
From Verif Require Import Base BaseFacts Topology TopologyFacts DofMap.

(** Entity table as a total function (empty outside the table). *)
Definition edof (st : dofmap) (d e : nat) : list nat := nth e (nth d (dm_ents st) []) [].

Definition tag : Type := nat * nat * nat.

Definition own_of (rank : nat) (g : grid) (t : tag) : owner_entry :=
  let '(d, e, k) := t in
  match g_own g d e with
  | Ghost p idx => mkOwner p d idx k
  | _ => mkOwner rank d e k
  end.

(** Number of DOFs that belong on entity [(d, e)]. *)
Definition ent_ndofs (g : grid) (fam : family) (d e : nat) : nat :=
  match d with
  | 2 => el_ndofs (fam (g_ctype g e)) 2 0
  | _ => el_ndofs (fam (hd Point (g_types g 2))) d 0
  end.

Record Shape (g : grid) (st : dofmap) : Prop := {
  sh_ents : length (dm_ents st) = 4;
  sh_ent : forall d, d <= 2 -> length (nth d (dm_ents st) []) = ent_count g d;
  sh_ent3 : nth 3 (dm_ents st) [] = [];
  sh_cells : length (dm_cells st) = ent_count g 2
}.

Record Inv (rank : nat) (g : grid) (fam : family) (B : nat -> Prop)
    (V : nat -> nat -> nat -> nat -> Prop) (tags : list tag) (st : dofmap) : Prop := {
  inv_shape : Shape g st;
  inv_size : length tags = dm_size st;
  inv_owner : dm_owner st = map (own_of rank g) tags;
  inv_bij : forall n d e k, nth_error tags n = Some (d, e, k) <-> nth_error (edof st d e) k = Some n;
  inv_len : forall d e, edof st d e = [] \/ (d <= 2 /\ length (edof st d e) = ent_ndofs g fam d e);
  inv_begun : forall c, B c -> length (nth c (dm_cells st) []) = el_dim (fam (g_ctype g c));
  inv_cell : forall c d i e l k x, V c d i e -> el_edofs (fam (g_ctype g c)) d i = Some l ->
    nth_error l k = Some x ->
    exists n, nth_error (nth c (dm_cells st) []) x = Some n /\ nth_error (edof st d e) k = Some n;
  inv_from : forall d e, edof st d e <> [] ->
    exists c i l, V c d i e /\ el_edofs (fam (g_ctype g c)) d i = Some l /\ l <> [];
  inv_vis : forall c d i e, V c d i e ->
    c < ent_count g 2 /\ d <= 2 /\ nth_error (g_sub g c d) i = Some e
}.

Lemma Inv_iff rank g fam (B B' : nat -> Prop) (V V' : nat -> nat -> nat -> nat -> Prop) tags st :
  (forall c, B' c -> B c) -> (forall c d i e, V c d i e <-> V' c d i e) ->
  Inv rank g fam B V tags st -> Inv rank g fam B' V' tags st.
Proof.
  intros HB HV [H1 H2 H3 H4 H5 H6 H7 H8 H9]. constructor; auto.
  - intros c d i e l k x Hv. apply HV in Hv. eauto.
  - intros d e Hne. destruct (H8 d e Hne) as (c & i & l & Hv & Hl). exists c, i, l. split; auto. now apply HV.
  - intros c d i e Hv. apply H9. now apply HV.
Qed.

Section Fix.
Variables (rank : nat) (g : grid) (fam : family).
Hypothesis W : wf_grid g.
Hypothesis WF : wf_family (g_types g 2) fam.

Lemma ent_lt_dim4 d : d <= 2 -> d < 4. Proof. lia. Qed.

Lemma ent_ndofs_ok c d i e l :
  c < ent_count g 2 -> d <= 2 -> nth_error (g_sub g c d) i = Some e ->
  el_edofs (fam (g_ctype g c)) d i = Some l -> length l = ent_ndofs g fam d e.
Proof.
  intros Hc Hd Hi Hl.
  assert (Hct := wf_ctype g W c Hc).
  assert (Hilen : i < ref_count (g_ctype g c) d).
  { rewrite <- (wf_sub_length g W c d Hc Hd). apply nth_error_Some. congruence. }
  assert (Hlen : length l = el_ndofs (fam (g_ctype g c)) d i)
    by (unfold el_ndofs; now rewrite Hl).
  assert (Hhd : In (hd Point (g_types g 2)) (g_types g 2)).
  { destruct (g_types g 2) as [|t ts] eqn:E; [now apply (wf_types2_ne g W) in E|]. now left. }
  rewrite Hlen. unfold ent_ndofs.
  destruct d as [|[|[|d]]]; try lia.
  - apply (wff_uniform _ _ WF); auto.
    destruct (wf_types2_surface g W _ Hhd) as [-> | ->]; simpl; lia.
  - apply (wff_uniform _ _ WF); auto.
    destruct (wf_types2_surface g W _ Hhd) as [-> | ->]; simpl; lia.
  - rewrite (wf_sub_cell g W c Hc) in Hi.
    destruct i as [|i]; [|destruct i; discriminate]. inversion Hi. reflexivity.
Qed.

(** ** Pushing the DOFs of a new entity *)

Lemma push_dof_Ok st d e k :
  Shape g st -> d <= 2 -> e < ent_count g d ->
  exists st', push_dof rank g d e st k = Ok st' /\
    Shape g st' /\ dm_cells st' = dm_cells st /\ dm_size st' = S (dm_size st) /\
    dm_owner st' = dm_owner st ++ [own_of rank g (d, e, k)] /\
    edof st' d e = edof st d e ++ [dm_size st] /\
    (forall d' e', (d', e') <> (d, e) -> edof st' d' e' = edof st d' e').
Proof.
  intros [S1 S2 S3 S4] Hd He. unfold push_dof.
  rewrite (vget_nth _ _ []) by lia. cbn [bind].
  rewrite (vget_nth _ _ []) by (rewrite S2; lia). cbn [bind].
  rewrite vset_lt by (rewrite S2; lia). cbn [bind].
  rewrite vset_lt by lia. cbn [bind].
  unfold entity_exists. rewrite (proj2 (Nat.ltb_lt _ _) He). cbn [bind].
  eexists. split; [reflexivity|].
  assert (Hn : forall d', nth d' (set_nth (dm_ents st) d (set_nth (nth d (dm_ents st) []) e (nth e (nth d (dm_ents st) []) [] ++ [dm_size st]))) []
            = if d =? d' then set_nth (nth d (dm_ents st) []) e (nth e (nth d (dm_ents st) []) [] ++ [dm_size st]) else nth d' (dm_ents st) []).
  { intros d'. rewrite nth_set_nth. rewrite (proj2 (Nat.ltb_lt d (length (dm_ents st)))) by lia.
    now rewrite andb_true_r. }
  split; [|repeat split].
  - constructor; cbn [dm_ents dm_cells]; auto.
    + now rewrite length_set_nth.
    + intros d' Hd'. rewrite Hn. destruct (Nat.eqb_spec d d'); auto.
      subst. rewrite length_set_nth. auto.
    + rewrite Hn. destruct (Nat.eqb_spec d 3); auto. lia.
  - unfold edof. cbn [dm_ents]. rewrite Hn, Nat.eqb_refl, nth_set_nth, Nat.eqb_refl.
    rewrite (proj2 (Nat.ltb_lt _ _)) by (rewrite S2; lia). reflexivity.
  - intros d' e' Hne. unfold edof. cbn [dm_ents]. rewrite Hn.
    destruct (Nat.eqb_spec d d'); auto. subst d'.
    rewrite nth_set_nth. destruct (Nat.eqb_spec e e'); auto. subst. now contradiction Hne.
Qed.

(** Adding the tags of the entity one by one. *)
Lemma push_all st d e m tags :
  Shape g st -> d <= 2 -> e < ent_count g d ->
  length tags = dm_size st ->
  dm_owner st = map (own_of rank g) tags ->
  (forall n d' e' k, nth_error tags n = Some (d', e', k) <-> nth_error (edof st d' e') k = Some n) ->
  edof st d e = [] ->
  exists st' tags', foldM (push_dof rank g d e) (seq 0 m) st = Ok st' /\
    Shape g st' /\ dm_cells st' = dm_cells st /\
    length tags' = dm_size st' /\ dm_owner st' = map (own_of rank g) tags' /\
    (forall n d' e' k, nth_error tags' n = Some (d', e', k) <-> nth_error (edof st' d' e') k = Some n) /\
    length (edof st' d e) = m /\
    (forall d' e', (d', e') <> (d, e) -> edof st' d' e' = edof st d' e').
Proof.
  intros HS Hd He Hlen Hown Hbij Hempty.
  induction m as [|m IH].
  - exists st, tags. simpl. rewrite Hempty. repeat (split; auto); try apply Hbij.
  - rewrite seq_S, foldM_app.
    destruct IH as (st1 & tags1 & E1 & HS1 & Hc1 & Hlen1 & Hown1 & Hbij1 & Hm1 & Hoth1).
    rewrite E1. cbn [bind foldM].
    destruct (push_dof_Ok st1 d e m HS1 Hd He) as (st2 & E2 & HS2 & Hc2 & Hsz2 & Hown2 & Hed2 & Hoth2).
    change (0 + m) with m. rewrite E2. cbn [bind].
    exists st2, (tags1 ++ [(d, e, m)]). split; [reflexivity|]. split; [exact HS2|].
    split; [congruence|]. split; [rewrite app_length; simpl; lia|].
    split; [rewrite Hown2, Hown1, map_app; reflexivity|].
    split; [|split].
    + intros n d' e' k.
      destruct (lt_dec n (length tags1)) as [Hn|Hn].
      * rewrite nth_error_app1 by auto.
        destruct (Nat.eq_dec d' d) as [->|Hdd]; [destruct (Nat.eq_dec e' e) as [->|Hee]|].
        -- rewrite Hed2. rewrite Hbij1.
           destruct (lt_dec k (length (edof st1 d e))).
           ++ rewrite nth_error_app1 by auto. tauto.
           ++ rewrite nth_error_app2 by lia.
              split; intros H.
              ** assert (k < length (edof st1 d e)) by (apply nth_error_Some; congruence). lia.
              ** destruct (k - length (edof st1 d e)) as [|j]; simpl in H; [inversion H; lia|destruct j; discriminate].
        -- rewrite Hoth2 by congruence. apply Hbij1.
        -- rewrite Hoth2 by congruence. apply Hbij1.
      * rewrite nth_error_app2 by lia.
        destruct (Nat.eq_dec d' d) as [->|Hdd]; [destruct (Nat.eq_dec e' e) as [->|Hee]|].
        -- rewrite Hed2. split; intros H.
           ++ destruct (n - length tags1) as [|j] eqn:Ej; simpl in H; [|destruct j; discriminate].
              inversion H; subst k. rewrite nth_error_app2 by lia. rewrite Hm1, Nat.sub_diag. simpl.
              f_equal. lia.
           ++ destruct (lt_dec k (length (edof st1 d e))).
              ** rewrite nth_error_app1 in H by auto. apply Hbij1 in H.
                 assert (n < length tags1) by (apply nth_error_Some; congruence). lia.
              ** rewrite nth_error_app2 in H by lia.
                 destruct (k - length (edof st1 d e)) as [|j] eqn:Ej; simpl in H; [|destruct j; discriminate].
                 inversion H; subst n. rewrite Hlen1, Nat.sub_diag. simpl. f_equal. f_equal. lia.
        -- rewrite Hoth2 by congruence. split; intros H.
           ++ destruct (n - length tags1) as [|j]; simpl in H; [inversion H; congruence|destruct j; discriminate].
           ++ apply Hbij1 in H. assert (n < length tags1) by (apply nth_error_Some; congruence). lia.
        -- rewrite Hoth2 by congruence. split; intros H.
           ++ destruct (n - length tags1) as [|j]; simpl in H; [inversion H; congruence|destruct j; discriminate].
           ++ apply Hbij1 in H. assert (n < length tags1) by (apply nth_error_Some; congruence). lia.
    + rewrite Hed2, app_length. simpl. lia.
    + intros d' e' Hne. rewrite Hoth2 by auto. auto.
Qed.

(** ** Writing the DOFs of an entity into the row of a cell *)

Lemma write_all c l row st :
  c < length (dm_cells st) -> NoDup l ->
  (forall x, In x l -> x < length (nth c (dm_cells st) [])) ->
  exists st', foldM (write_dof c) (combine l row) st = Ok st' /\
    dm_ents st' = dm_ents st /\ dm_size st' = dm_size st /\ dm_owner st' = dm_owner st /\
    length (dm_cells st') = length (dm_cells st) /\
    length (nth c (dm_cells st') []) = length (nth c (dm_cells st) []) /\
    (forall c', c' <> c -> nth c' (dm_cells st') [] = nth c' (dm_cells st) []) /\
    (forall k x n, nth_error l k = Some x -> nth_error row k = Some n ->
       nth_error (nth c (dm_cells st') []) x = Some n) /\
    (forall x, ~ In x l -> nth_error (nth c (dm_cells st') []) x = nth_error (nth c (dm_cells st) []) x).
Proof.
  revert row st. induction l as [|x0 l IH]; intros row st Hc Hn Hlt.
  - exists st. simpl. repeat split; auto. intros [|k]; discriminate.
  - destruct row as [|n0 row].
    + exists st. simpl. repeat split; auto. intros [|k]; discriminate.
    + inversion Hn as [|? ? Hx0 Hn']; subst.
      cbn [combine foldM]. unfold write_dof at 1. cbn [fst snd].
      rewrite (vget_nth _ _ []) by auto. cbn [bind].
      rewrite vset_lt by (apply Hlt; now left). cbn [bind].
      rewrite vset_lt by auto. cbn [bind].
      set (st1 := mkDofmap _ _ _ _).
      assert (Hr : nth c (dm_cells st1) [] = set_nth (nth c (dm_cells st) []) x0 n0).
      { unfold st1. cbn [dm_cells]. rewrite nth_set_nth, Nat.eqb_refl.
        now rewrite (proj2 (Nat.ltb_lt _ _) Hc). }
      destruct (IH row st1) as (st' & E & H1 & H2 & H3 & H4 & H5 & H6 & H7 & H8).
      * unfold st1. cbn [dm_cells]. now rewrite length_set_nth.
      * exact Hn'.
      * intros x Hx. rewrite Hr, length_set_nth. apply Hlt. now right.
      * exists st'. split; [exact E|].
        split; [exact H1|]. split; [exact H2|]. split; [exact H3|].
        split; [rewrite H4; unfold st1; cbn [dm_cells]; now rewrite length_set_nth|].
        split; [rewrite H5, Hr; now rewrite length_set_nth|].
        split; [|split].
        -- intros c' Hne. rewrite H6 by auto. unfold st1. cbn [dm_cells].
           rewrite nth_set_nth. rewrite (proj2 (Nat.eqb_neq c c')) by auto. reflexivity.
        -- intros [|k] x n Hx Hk; simpl in Hx, Hk.
           ++ inversion Hx; inversion Hk; subst. rewrite H8 by auto. rewrite Hr.
              apply nth_error_set_nth_eq. apply Hlt. now left.
           ++ eapply H7; eauto.
        -- intros x Hx. rewrite H8 by (intros H; apply Hx; now right). rewrite Hr.
           apply nth_error_set_nth_neq. intros ->. apply Hx. now left.
Qed.

(** ** One sub-entity *)

Lemma visit_sub_inv c d i e B V tags st :
  Inv rank g fam B V tags st -> B c -> c < ent_count g 2 -> d <= 2 ->
  nth_error (g_sub g c d) i = Some e ->
  exists st' tags', visit_sub rank g c (fam (g_ctype g c)) d st (i, e) = Ok st' /\
    Inv rank g fam B (fun c' d' i' e' => V c' d' i' e' \/ (c' = c /\ d' = d /\ i' = i /\ e' = e)) tags' st'.
Proof.
  intros I HB Hc Hd Hi. destruct I as [I1 I2 I3 I4 I5 I6 I7 I8 I9].
  assert (Hct := wf_ctype g W c Hc).
  assert (WE := wff_el _ _ WF _ Hct).
  assert (Hilen : i < ref_count (g_ctype g c) d).
  { rewrite <- (wf_sub_length g W c d Hc Hd). apply nth_error_Some. congruence. }
  destruct (we_some _ _ WE d i Hd Hilen) as (l & El).
  assert (He : e < ent_count g d).
  { apply (wf_sub_lt g W c d e Hc Hd). eapply nth_error_In; eauto. }
  unfold visit_sub. rewrite El. cbn [unwrap bind].
  assert (Hnd := ent_ndofs_ok c d i e l Hc Hd Hi El).
  destruct (is_empty l) eqn:Hie.
  - (* nothing to do *)
    destruct l as [|x0 l']; [|discriminate].
    exists st, tags. split; [reflexivity|]. constructor; auto.
    + intros c' d' i' e' l1 k x [Hv|(-> & -> & -> & ->)] Hl1 Hk; [eauto|].
      rewrite El in Hl1. inversion Hl1; subst. destruct k; discriminate.
    + intros d' e' Hne. destruct (I8 d' e' Hne) as (c1 & i1 & l1 & Hv & Hx). exists c1, i1, l1. tauto.
    + intros c' d' i' e' [Hv|(-> & -> & -> & ->)]; auto.
  - assert (Hlne : l <> []) by (destruct l; [discriminate Hie|discriminate]).
    destruct I1 as [S1 S2 S3 S4] eqn:HS; clear HS.
    rewrite (vget_nth _ _ []) by lia. cbn [bind].
    rewrite (vget_nth _ _ []) by (rewrite S2; lia). cbn [bind].
    change (nth e (nth d (dm_ents st) []) []) with (edof st d e).
    assert (Hstep : exists st1 tags1,
      (if is_empty (edof st d e) then foldM (push_dof rank g d e) (seq 0 (length l)) st else Ok st) = Ok st1 /\
      Shape g st1 /\ dm_cells st1 = dm_cells st /\
      length tags1 = dm_size st1 /\ dm_owner st1 = map (own_of rank g) tags1 /\
      (forall n d' e' k, nth_error tags1 n = Some (d', e', k) <-> nth_error (edof st1 d' e') k = Some n) /\
      length (edof st1 d e) = length l /\
      (edof st d e <> [] -> edof st1 d e = edof st d e) /\
      (forall d' e', (d', e') <> (d, e) -> edof st1 d' e' = edof st d' e')).
    { destruct (edof st d e) as [|n0 r0] eqn:Eed; cbn [is_empty].
      - destruct (push_all st d e (length l) tags) as (st1 & tags1 & P1 & P2 & P3 & P4 & P5 & P6 & P7 & P8); auto.
        exists st1, tags1. repeat (split; auto). all: try (apply P6). intros H; now contradiction H.
      - exists st, tags. repeat (split; auto). all: try (apply I4).
        destruct (I5 d e) as [H|[_ H]]; rewrite Eed in *; [discriminate|]. now rewrite H. }
    destruct Hstep as (st1 & tags1 & E1 & T1 & T2 & T3 & T4 & T5 & T6 & T7 & T8).
    rewrite E1. cbn [bind].
    destruct T1 as [U1 U2 U3 U4] eqn:HT; clear HT.
    rewrite (vget_nth _ _ []) by lia. cbn [bind].
    rewrite (vget_nth _ _ []) by (rewrite U2; lia). cbn [bind].
    change (nth e (nth d (dm_ents st1) []) []) with (edof st1 d e).
    assert (Nl : NoDup l).
    { apply NoDup_nth_error. intros k1 k2 Hk1 Ek.
      destruct (nth_error l k1) as [x|] eqn:Ex; [|apply nth_error_None in Ex; lia].
      eapply (we_inj _ _ d i l k1 d i l k2 x WE); eauto. }
    destruct (write_all c l (edof st1 d e) st1) as (st2 & E2 & Q1 & Q2 & Q3 & Q4 & Q5 & Q6 & Q7 & Q8).
    { rewrite U4. exact Hc. }
    { exact Nl. }
    { intros x Hx. rewrite T2, (I6 c HB). apply In_nth_error in Hx. destruct Hx as (k & Hk).
      eapply we_lt; eauto. }
    exists st2, tags1. split; [exact E2|].
    assert (Hed : forall d' e', edof st2 d' e' = edof st1 d' e') by (intros; unfold edof; now rewrite Q1).
    constructor.
    + constructor; rewrite ?Q1; auto. now rewrite Q4.
    + now rewrite Q2.
    + now rewrite Q3.
    + intros. rewrite Hed. apply T5.
    + intros d' e'. rewrite Hed.
      destruct (Nat.eq_dec d' d) as [->|Hdd]; [destruct (Nat.eq_dec e' e) as [->|Hee]|].
      * right. split; auto. congruence.
      * rewrite T8 by congruence. apply I5.
      * rewrite T8 by congruence. apply I5.
    + intros c' Hc'. destruct (Nat.eq_dec c' c) as [->|Hcc].
      * rewrite Q5, T2. auto.
      * rewrite Q6, T2 by auto. auto.
    + intros c' d' i' e' l1 k x Hv Hl1 Hk.
      rewrite Hed.
      destruct Hv as [Hv|(-> & -> & -> & ->)].
      * destruct (I7 c' d' i' e' l1 k x Hv Hl1 Hk) as (n & Hn1 & Hn2).
        assert (Hsame : nth_error (edof st1 d' e') k = Some n).
        { destruct (Nat.eq_dec d' d) as [->|Hdd]; [destruct (Nat.eq_dec e' e) as [->|Hee]|].
          - rewrite T7; auto. intros H. rewrite H in Hn2. destruct k; discriminate.
          - rewrite T8 by congruence. auto.
          - rewrite T8 by congruence. auto. }
        exists n. split; auto.
        destruct (Nat.eq_dec c' c) as [->|Hcc]; [|rewrite Q6, T2 by auto; auto].
        destruct (in_dec Nat.eq_dec x l) as [Hin|Hin].
        -- apply In_nth_error in Hin. destruct Hin as (k2 & Hk2).
           destruct (we_inj _ _ d' i' l1 k d i l k2 x WE Hl1 Hk El Hk2) as (-> & -> & ->).
           assert (He' : e' = e \/ e' <> e) by (destruct (Nat.eq_dec e' e); auto).
           destruct He' as [->|Hne].
           ++ eapply Q7; eauto.
           ++ (* the same position [i] of the same cell refers to one entity *)
              exfalso. apply Hne. destruct (I9 _ _ _ _ Hv) as (_ & _ & Hi'). congruence.
        -- rewrite Q8 by auto. now rewrite T2.
      * rewrite El in Hl1. inversion Hl1; subst l1.
        destruct (nth_error (edof st1 d e) k) as [n|] eqn:En.
        -- exists n. split; auto. eapply Q7; eauto.
        -- apply nth_error_None in En. assert (k < length l) by (apply nth_error_Some; congruence). lia.
    + intros d' e' Hne. rewrite Hed in Hne.
      destruct (Nat.eq_dec d' d) as [->|Hdd]; [destruct (Nat.eq_dec e' e) as [->|Hee]|].
      * exists c, i, l. split; [right; auto|auto].
      * rewrite T8 in Hne by congruence. destruct (I8 _ _ Hne) as (c1 & i1 & l1 & Hv & Hx). exists c1, i1, l1; tauto.
      * rewrite T8 in Hne by congruence. destruct (I8 _ _ Hne) as (c1 & i1 & l1 & Hv & Hx). exists c1, i1, l1; tauto.
    + intros c' d' i' e' [Hv|(-> & -> & -> & ->)]; auto.
Qed.

(** ** One cell *)

Lemma visit_cell_inv c B V tags st :
  Inv rank g fam B V tags st -> c < ent_count g 2 -> (forall d i e, ~ V c d i e) ->
  exists st' tags', visit_cell rank g (map (fun t => (t, fam t)) (g_types g 2)) st c = Ok st' /\
    Inv rank g fam (fun c' => B c' \/ c' = c)
      (fun c' d i e => V c' d i e \/ (c' = c /\ d <= 2 /\ nth_error (g_sub g c d) i = Some e)) tags' st'.
Proof.
  intros I Hc HV. destruct I as [I1 I2 I3 I4 I5 I6 I7 I8 I9].
  unfold visit_cell.
  rewrite (assoc_map ct_eqb fam) by (auto using ct_eqb_eq, wf_ctype). cbn [unwrap bind].
  destruct I1 as [S1 S2 S3 S4].
  rewrite vset_lt by (rewrite S4; exact Hc). cbn [bind].
  rewrite (wf_tdim g W). change (2 + 1) with 3.
  set (st0 := mkDofmap _ _ _ _).
  assert (I0 : Inv rank g fam (fun c' => B c' \/ c' = c) V tags st0).
  { constructor; auto.
    - constructor; auto. unfold st0. cbn [dm_cells]. now rewrite length_set_nth.
    - intros c' Hc'. unfold st0. cbn [dm_cells]. rewrite nth_set_nth.
      destruct (Nat.eqb_spec c c') as [<-|Hne].
      + rewrite (proj2 (Nat.ltb_lt _ _)) by (rewrite S4; exact Hc). simpl. apply repeat_length.
      + simpl. destruct Hc' as [H| ->]; [auto|congruence].
    - intros c' d i e l k x Hv Hl Hk.
      destruct (I7 c' d i e l k x Hv Hl Hk) as (n & Hn1 & Hn2). exists n. split; [|exact Hn2].
      unfold st0. cbn [dm_cells]. rewrite nth_set_nth.
      destruct (Nat.eqb_spec c c') as [<-|Hne]; [now apply HV in Hv|]. simpl. exact Hn1. }
  (* loop over dimensions *)
  destruct (foldM_inv
    (fun st d => foldM (visit_sub rank g c (fam (g_ctype g c)) d) (enumerate (g_sub g c d)) st)
    (fun ds st' => exists tags', Inv rank g fam (fun c' => B c' \/ c' = c)
      (fun c' d i e => V c' d i e \/ (c' = c /\ In d ds /\ nth_error (g_sub g c d) i = Some e)) tags' st')
    (seq 0 3) st0) as (st1 & E1 & tags1 & I1').
  - exists tags. eapply Inv_iff; [| |exact I0]; auto. intros. simpl. tauto.
  - intros pre d post s0 Hsplit (tags0 & J).
    assert (Hd : d <= 2).
    { assert (In d (seq 0 3)) by (rewrite Hsplit; apply in_elt). apply in_seq in H. lia. }
    destruct (foldM_inv (visit_sub rank g c (fam (g_ctype g c)) d)
      (fun ies st' => exists tags', Inv rank g fam (fun c' => B c' \/ c' = c)
        (fun c' d' i e => (V c' d' i e \/ (c' = c /\ In d' pre /\ nth_error (g_sub g c d') i = Some e)) \/
                         (c' = c /\ d' = d /\ In (i, e) ies)) tags' st')
      (enumerate (g_sub g c d)) s0) as (s1 & E & tags1 & J1).
    + exists tags0. eapply Inv_iff; [| |exact J]; auto. intros. simpl. tauto.
    + intros ipre [i e] ipost s2 Hs2 (tags2 & J2).
      assert (Hie : nth_error (g_sub g c d) i = Some e).
      { apply In_enumerate. rewrite Hs2. apply in_elt. }
      destruct (visit_sub_inv c d i e _ _ tags2 s2 J2) as (s3 & tags3 & E3 & J3); auto.
      exists s3. split; [exact E3|]. exists tags3. eapply Inv_iff; [| |exact J3]; auto.
      intros c' d' i' e'. rewrite in_app_iff. simpl. split.
      * intros [H|(-> & -> & -> & ->)]; tauto.
      * intros [H|(-> & -> & [H|[H|[]]])]; [tauto|tauto|]. inversion H. tauto.
    + exists s1. split; [exact E|]. exists tags1. eapply Inv_iff; [| |exact J1]; auto.
      intros c' d' i' e'. rewrite in_app_iff, In_enumerate. simpl. split.
      * intros [H|(-> & -> & H)]; tauto.
      * intros [H|(-> & [H|[H|[]]] & H2)]; [tauto|tauto|]. subst d'. tauto.
  - exists st1, tags1. split; [exact E1|]. eapply Inv_iff; [| |exact I1']; auto.
    intros c' d i e. cbv beta. rewrite in_seq. split.
    + intros [H|(-> & H & H2)]; [tauto|]. right. repeat split; auto. lia.
    + intros [H|(-> & H & H2)]; [tauto|]. right. repeat split; auto; lia.
Qed.

(** ** The whole DOF map *)

Definition all_subs (c d i e : nat) : Prop :=
  c < ent_count g 2 /\ d <= 2 /\ nth_error (g_sub g c d) i = Some e.

Lemma assign_dofs_inv :
  exists dm tags, assign_dofs rank g fam = Ok dm /\
    Inv rank g fam (fun c => c < ent_count g 2) all_subs tags dm.
Proof.
  unfold assign_dofs. rewrite (wf_tdim g W). change (2 <? 2) with false. cbv iota zeta.
  set (st0 := mkDofmap _ _ _ _).
  destruct (foldM_inv (visit_cell rank g (map (fun t => (t, fam t)) (g_types g 2)))
    (fun cs st' => exists tags', Inv rank g fam (fun c => In c cs)
      (fun c d i e => In c cs /\ d <= 2 /\ nth_error (g_sub g c d) i = Some e) tags' st')
    (g_iter g 2) st0) as (st1 & E1 & tags1 & I1).
  - assert (Hz : forall d e, edof st0 d e = []).
    { intros d e. unfold edof, st0. cbn [dm_ents].
      destruct d as [|[|[|[|d]]]]; cbn [seq map nth Nat.leb]; try apply nth_repeat_any.
      - now destruct e.
      - destruct d; now destruct e. }
    exists []. constructor.
    + constructor; cbn [dm_ents dm_cells st0]; auto.
      * intros d Hd. destruct d as [|[|[|d]]]; try lia; cbn [seq map nth Nat.leb]; apply repeat_length.
      * apply repeat_length.
    + reflexivity.
    + reflexivity.
    + intros n d e k. rewrite Hz. split; intros H; [destruct n; discriminate|destruct k; discriminate].
    + intros d e. left. apply Hz.
    + intros c [].
    + intros c d i e l k x ([] & _).
    + intros d e H. exfalso. apply H. apply Hz.
    + intros c d i e ([] & _).
  - intros pre c post s0 Hsplit (tags0 & J).
    assert (Hc : c < ent_count g 2).
    { apply (wf_iter_In g W 2 c); auto. rewrite Hsplit. apply in_elt. }
    assert (Hnotin : ~ In c pre).
    { assert (N := wf_iter_nodup g W 2 (le_n 2)). rewrite Hsplit in N.
      apply NoDup_remove_2 in N. intros H. apply N. apply in_or_app. now left. }
    destruct (visit_cell_inv c _ _ tags0 s0 J Hc) as (s1 & tags1 & E & J1).
    { intros d i e (H & _). auto. }
    exists s1. split; [exact E|]. exists tags1. eapply Inv_iff; [| |exact J1].
    + intros c'. rewrite in_app_iff. simpl. intros [H|[H|[]]]; auto.
    + intros c' d i e. rewrite in_app_iff. simpl. split.
      * intros [(H1 & H2)|(-> & H2)]; tauto.
      * intros ([H1|[<-|[]]] & H2); tauto.
  - exists st1, tags1. split; [exact E1|]. eapply Inv_iff; [| |exact I1].
    + intros c Hc. apply (wf_iter_In g W 2 c); auto.
    + intros c d i e. unfold all_subs. rewrite (wf_iter_In g W 2 c) by auto. tauto.
Qed.
End Fix.
