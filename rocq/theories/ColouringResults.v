(** * Consequences of the colouring invariant *)
From Verif Require Import Base BaseFacts Topology TopologyFacts DofMap DofMapFacts SpecDof DofMapResults
  Colouring ColouringFacts SpecColour.

(** The smallest dimension with DOFs. *)
Record lowest_dim (types : list cell_type) (fam : family) (edim : nat) : Prop := {
  ld_le : edim <= 2;
  ld_zero : forall t d i, In t types -> d < edim -> el_ndofs (fam t) d i = 0;
  ld_pos : forall t i, In t types -> edim < 2 -> i < ref_count t edim -> 0 < el_ndofs (fam t) edim i
}.

Lemma ref_count_pos t d : surface_type t -> d <= 2 -> 0 < ref_count t d.
Proof. intros [-> | ->] Hd; destruct d as [|[|[|d]]]; simpl; lia. Qed.

Lemma find_edim_spec g fam t0 :
  wf_grid g -> wf_family (g_types g 2) fam -> In t0 (g_types g 2) -> 0 < el_dim (fam t0) ->
  exists edim, find_edim (fam t0) 5 0 = Ok edim /\ lowest_dim (g_types g 2) fam edim.
Proof.
  intros W WF Ht Hdim. assert (WE := wff_el _ _ WF t0 Ht).
  assert (St := wf_types2_surface g W t0 Ht).
  assert (Hz : forall d, d < 2 -> el_ndofs (fam t0) d 0 = 0 ->
             forall t i, In t (g_types g 2) -> el_ndofs (fam t) d i = 0).
  { intros d Hd H t i Hin. destruct (lt_dec i (ref_count t d)) as [Hi|Hi].
    - rewrite <- H. apply (wff_uniform _ _ WF); auto. apply ref_count_pos; auto. lia.
    - unfold el_ndofs. rewrite (we_none _ _ (wff_el _ _ WF t Hin)); auto. tauto. }
  assert (Hp : forall d, d < 2 -> 0 < el_ndofs (fam t0) d 0 ->
             forall t i, In t (g_types g 2) -> i < ref_count t d -> 0 < el_ndofs (fam t) d i).
  { intros d Hd H t i Hin Hi. rewrite (wff_uniform _ _ WF t t0 d i 0); auto. apply ref_count_pos; auto. lia. }
  destruct (we_some _ _ WE 0 0) as (l0 & E0); [lia|apply ref_count_pos; auto; lia|].
  destruct (we_some _ _ WE 1 0) as (l1 & E1); [lia|apply ref_count_pos; auto; lia|].
  destruct (we_some _ _ WE 2 0) as (l2 & E2); [lia|apply ref_count_pos; auto; lia|].
  cbn [find_edim]. rewrite E0. cbn [unwrap bind].
  destruct l0 as [|a0 l0]; cbn [is_empty].
  2:{ exists 0. split; auto. constructor; [lia|intros; lia|]. intros t i Hin _ Hi.
      apply Hp; auto. unfold el_ndofs. rewrite E0. simpl. lia. }
  assert (Z0 := Hz 0 ltac:(lia) ltac:(unfold el_ndofs; now rewrite E0)).
  rewrite E1. cbn [unwrap bind].
  destruct l1 as [|a1 l1]; cbn [is_empty].
  2:{ exists 1. split; auto. constructor; [lia| |].
      - intros t d i Hin Hd. assert (d = 0) by lia. subst. auto.
      - intros t i Hin _ Hi. apply Hp; auto. unfold el_ndofs. rewrite E1. simpl. lia. }
  assert (Z1 := Hz 1 ltac:(lia) ltac:(unfold el_ndofs; now rewrite E1)).
  rewrite E2. cbn [unwrap bind].
  destruct l2 as [|a2 l2]; cbn [is_empty].
  2:{ exists 2. split; auto. constructor; [lia| |].
      - intros t d i Hin Hd. destruct d as [|[|d]]; auto. lia.
      - intros; lia. }
  exfalso.
  destruct (we_cover _ _ 0 WE Hdim) as (d & i & l & k & Hd & Hi & El & Ek).
  assert (length l = 0); [|destruct l; [destruct k; discriminate|discriminate]].
  assert (E : el_ndofs (fam t0) d i = length l) by (unfold el_ndofs; now rewrite El).
  rewrite <- E. destruct d as [|[|[|d]]]; auto; [|lia].
  assert (i = 0) by (destruct St as [-> | ->]; simpl in Hi; lia). subst.
  rewrite E2 in El. inversion El. subst. destruct k; discriminate.
Qed.

Lemma find_edim_zero t el : surface_type t -> wf_element t el -> el_dim el = 0 -> find_edim el 5 0 = Panic.
Proof.
  intros St WE Hz.
  assert (Hall : forall d i l, el_edofs el d i = Some l -> l = []).
  { intros d i l El. destruct l as [|x l]; auto. exfalso.
    assert (H := we_lt t el d i (x :: l) 0 x WE El eq_refl). lia. }
  destruct (we_some _ _ WE 0 0) as (l0 & E0); [lia|apply ref_count_pos; auto; lia|].
  destruct (we_some _ _ WE 1 0) as (l1 & E1); [lia|apply ref_count_pos; auto; lia|].
  destruct (we_some _ _ WE 2 0) as (l2 & E2); [lia|apply ref_count_pos; auto; lia|].
  assert (E3 : el_edofs el 3 0 = None) by (apply (we_none _ _ WE); lia).
  cbn [find_edim]. rewrite E0, (Hall _ _ _ E0). cbn [unwrap bind is_empty].
  rewrite E1, (Hall _ _ _ E1). cbn [unwrap bind is_empty].
  rewrite E2, (Hall _ _ _ E2). cbn [unwrap bind is_empty]. rewrite E3. reflexivity.
Qed.

Lemma colour_table_size_Ok g edim : wf_grid g -> edim <= 2 -> colour_table_size g edim = Ok (ent_count g edim).
Proof.
  intros W H. unfold colour_table_size, ent_count.
  destruct edim as [|[|[|d]]]; [| | |lia].
  - rewrite (wf_types0 g W). simpl. f_equal. lia.
  - rewrite (wf_types1 g W). simpl. f_equal. lia.
  - rewrite (wf_tdim g W). reflexivity.
Qed.

Lemma wf_head g : wf_grid g -> exists t0 r, g_types g 2 = t0 :: r.
Proof. intros W. destruct (g_types g 2) eqn:E; eauto. exfalso. exact (wf_types2_ne g W E). Qed.

Lemma colouring_main g fam :
  wf_grid g -> wf_family (g_types g 2) fam -> head_dim_pos g fam ->
  exists edim ec col f K, lowest_dim (g_types g 2) fam edim /\ cell_colouring g fam = Ok col /\
    CInv g edim (g_iter g 2) f K (col, ec).
Proof.
  intros W WF Hd. destruct (wf_head g W) as (t0 & r & Et).
  assert (Hin : In t0 (g_types g 2)) by (rewrite Et; now left).
  destruct (find_edim_spec g fam t0 W WF Hin) as (edim & He & LD); [apply Hd; now rewrite Et|].
  destruct (colour_fold_inv g edim W (ld_le _ _ _ LD)) as ([col ec] & f & K & Hf & I).
  exists edim, ec, col, f, K. split; auto. split; auto.
  unfold cell_colouring. rewrite Et at 1. cbn [vget nth_error unwrap bind].
  rewrite assoc_map by (auto using ct_eqb_eq). cbn [unwrap bind]. rewrite He. cbn [bind].
  rewrite (colour_table_size_Ok g edim W (ld_le _ _ _ LD)). cbn [bind]. rewrite Hf. reflexivity.
Qed.

Lemma colouring_zero_dim g fam t0 :
  wf_grid g -> wf_family (g_types g 2) fam -> nth_error (g_types g 2) 0 = Some t0 -> el_dim (fam t0) = 0 ->
  cell_colouring g fam = Panic.
Proof.
  intros W WF Et Hz. assert (Hin : In t0 (g_types g 2)) by (eapply nth_error_In; eauto).
  unfold cell_colouring. unfold vget at 1. rewrite Et. cbn [unwrap bind].
  rewrite assoc_map by (auto using ct_eqb_eq). cbn [unwrap bind].
  rewrite (find_edim_zero t0); auto. - now apply (wf_types2_surface g W). - now apply (wff_el _ _ WF).
Qed.

Section Conflicts.
Variables (rank : nat) (g : grid) (fam : family) (dm : dofmap) (edim : nat).
Hypothesis W : wf_grid g.
Hypothesis WF : wf_family (g_types g 2) fam.
Hypothesis HA : assign_dofs rank g fam = Ok dm.
Hypothesis LD : lowest_dim (g_types g 2) fam edim.

Lemma touch_conflict c c' :
  c < ent_count g 2 -> c' < ent_count g 2 -> c <> c' -> touch g edim c c' -> conflict dm c c'.
Proof.
  intros Hc Hc' Hne (v & Hv & Hv'). assert (Le := ld_le _ _ _ LD).
  destruct (Nat.eq_dec edim 2) as [E2|E2].
  - rewrite E2 in Hv, Hv'. rewrite (wf_sub_cell g W c Hc) in Hv. rewrite (wf_sub_cell g W c' Hc') in Hv'.
    destruct Hv as [<-|[]], Hv' as [<-|[]]. congruence.
  - apply In_nth_error in Hv, Hv'. destruct Hv as (i & Hi), Hv' as (i' & Hi').
    assert (Hs : sub_at g c edim i v) by (repeat split; auto).
    assert (Hs' : sub_at g c' edim i' v) by (repeat split; auto).
    assert (Hlen : 0 < length (edof dm edim v)).
    { rewrite (edof_length rank g fam dm W WF HA c edim i v Hs). apply (ld_pos _ _ _ LD); [now apply wf_ctype|lia|].
      rewrite <- (wf_sub_length g W c edim Hc Le). apply nth_error_Some. congruence. }
    destruct (edof dm edim v) as [|n ns] eqn:En; [simpl in Hlen; lia|].
    assert (Hrow : forall c0 i0, sub_at g c0 edim i0 v -> In n (nth c0 (dm_cells dm) [])).
    { intros c0 i0 Hs0. assert (L := edof_length rank g fam dm W WF HA c0 edim i0 v Hs0).
      rewrite En in L. unfold el_ndofs in L.
      destruct (el_edofs (fam (g_ctype g c0)) edim i0) as [[|x l]|] eqn:El; try (simpl in L; lia).
      destruct (cell_row_entity rank g fam dm W WF HA c0 edim i0 v (x :: l) 0 x Hs0 El eq_refl) as (n' & A & B).
      rewrite En in B. inversion B; subst. eapply nth_error_In; eauto. }
    exists (nth c (dm_cells dm) []), (nth c' (dm_cells dm) []), n.
    split; [eapply cell_row; eauto|]. split; [eapply cell_row; eauto|].
    split; eapply Hrow; eauto.
Qed.

Lemma conflict_touch c c' : c <> c' -> conflict dm c c' -> touch g edim c c'.
Proof.
  intros Hne (l & l' & n & Hr & Hr' & Hn & Hn').
  apply (has_cell_dofs_iff rank g fam dm W WF HA) in Hr. destruct Hr as [Hc ->].
  apply (has_cell_dofs_iff rank g fam dm W WF HA) in Hr'. destruct Hr' as [Hc' ->].
  destruct (shared_dof rank g fam dm W WF HA c c' n Hc Hc' Hn Hn') as (d & e & (_ & Hd & He) & (_ & _ & He') & Hin).
  apply In_nth_error in He, He'. destruct He as (i & Hi), He' as (i' & Hi').
  assert (Hs : sub_at g c d i e) by (repeat split; auto).
  assert (Hs' : sub_at g c' d i' e) by (repeat split; auto).
  assert (Hge : edim <= d).
  { destruct (le_lt_dec edim d) as [|Hlt]; auto. exfalso.
    assert (L := edof_length rank g fam dm W WF HA c d i e Hs).
    rewrite (ld_zero _ _ _ LD) in L by (auto using wf_ctype).
    destruct (edof dm d e); [destruct Hin|discriminate]. }
  assert (H2 : d <> 2).
  { intros ->. rewrite (wf_sub_cell g W c Hc) in Hi. rewrite (wf_sub_cell g W c' Hc') in Hi'.
    apply nth_error_In in Hi, Hi'. destruct Hi as [<-|[]], Hi' as [<-|[]]. congruence. }
  destruct (Nat.eq_dec d edim) as [->|Hde].
  - exists e. split; eapply nth_error_In; eauto.
  - assert (d = 1) by lia. assert (E0 : edim = 0) by lia. subst d. rewrite E0.
    destruct (shared_edge_ends g c c' i i' e W Hs Hs') as (a & b & a' & b' & va & vb & E & E' & Hva & Hvb & _ & Hor).
    assert (St := wf_cell_surface g c W Hc). assert (St' := wf_cell_surface g c' W Hc').
    destruct (ref_edges_lt _ _ _ _ St E) as (Ha & Hb & _).
    destruct (ref_edges_lt _ _ _ _ St' E') as (Ha' & Hb' & _).
    rewrite <- (wf_sub_length g W c 0 Hc) in Ha by lia.
    rewrite <- (wf_sub_length g W c' 0 Hc') in Ha', Hb' by lia.
    exists va. split; [rewrite <- Hva; now apply nth_In|].
    destruct Hor as [[<- _]|[_ <-]]; now apply nth_In.
Qed.
End Conflicts.

Section Spec.
Variables (g : grid) (edim : nat) (f : nat -> nat) (K : nat) (col : colour_map) (ec : list (list nat)).
Hypothesis W : wf_grid g.
Hypothesis I : CInv g edim (g_iter g 2) f K (col, ec).

Lemma in_class_iff t k c : in_class col t k c <->
  c < ent_count g 2 /\ g_ctype g c = t /\ f c = k.
Proof.
  assert (Hkeys := ci_keys _ _ _ _ _ _ I). cbn [fst] in Hkeys. split.
  - intros (classes & l & H1 & H2 & H3).
    assert (Hk : k < K).
    { rewrite <- (ci_len _ _ _ _ _ _ I t classes H1). apply nth_error_Some. congruence. }
    rewrite (ci_classes _ _ _ _ _ _ I t classes k H1 Hk) in H2. inversion H2; subst l.
    apply filter_In in H3. destruct H3 as [H3 H4]. apply andb_prop in H4. destruct H4 as [H4 H5].
    apply ct_eqb_eq in H4. apply Nat.eqb_eq in H5. apply (wf_iter_In g W 2 c) in H3; auto.
  - intros (Hc & Ht & Hk). assert (Hi : In c (g_iter g 2)) by (now apply (wf_iter_In g W 2 c)).
    destruct (assoc_In_Some ct_eqb t col ct_eqb_eq) as (classes & Hcl).
    { rewrite Hkeys, <- Ht. now apply wf_ctype. }
    assert (HK : k < K) by (rewrite <- Hk; now apply (ci_lt _ _ _ _ _ _ I)).
    exists classes, (filter (fun c => ct_eqb (g_ctype g c) t && (f c =? k)) (g_iter g 2)).
    split; auto. split; [now apply (ci_classes _ _ _ _ _ _ I)|].
    apply filter_In. split; auto. rewrite Ht, ct_eqb_refl, Hk, Nat.eqb_refl. reflexivity.
Qed.

Lemma class_NoDup t classes k l : assoc ct_eqb t col = Some classes -> nth_error classes k = Some l -> NoDup l.
Proof.
  intros H1 H2. assert (Hk : k < K).
  { rewrite <- (ci_len _ _ _ _ _ _ I t classes H1). apply nth_error_Some. congruence. }
  rewrite (ci_classes _ _ _ _ _ _ I t classes k H1 Hk) in H2. inversion H2; subst l.
  apply NoDup_filter. now apply (wf_iter_nodup g W).
Qed.

Lemma greedy_list c n : c < ent_count g 2 -> n <= f c ->
  exists L, length L = n /\ NoDup L /\ forall c', In c' L -> c' < ent_count g 2 /\ c' <> c /\ f c' < n /\ touch g edim c c'.
Proof.
  intros Hc. assert (Hi : In c (g_iter g 2)) by (now apply (wf_iter_In g W 2 c)).
  induction n as [|n IH]; intros Hn.
  - exists []. split; auto. split; [constructor|]. intros ? [].
  - destruct IH as (L & H1 & H2 & H3); [lia|].
    destruct (ci_greedy _ _ _ _ _ _ I c n Hi) as (c' & A & B & C & D); [lia|].
    exists (c' :: L). simpl. split; auto. split.
    + constructor; auto. intros Hin. apply H3 in Hin. lia.
    + intros x [<-|Hx].
      * repeat split; auto; try lia. now apply (wf_iter_In g W 2 c').
      * destruct (H3 x Hx) as (? & ? & ? & ?). repeat split; auto.
Qed.
End Spec.

(** ** The statements *)

Lemma colouring_partition : forall g fam,
  wf_grid g -> wf_family (g_types g 2) fam -> head_dim_pos g fam ->
  exists col K, cell_colouring g fam = Ok col /\ map fst col = g_types g 2 /\ class_count col K /\
    (forall c, c < ent_count g 2 -> exists k, k < K /\ in_class col (g_ctype g c) k c) /\
    (forall t k t' k' c, in_class col t k c -> in_class col t' k' c -> t = t' /\ k = k') /\
    (forall t k c, in_class col t k c -> c < ent_count g 2 /\ t = g_ctype g c) /\
    (forall t classes k l, assoc ct_eqb t col = Some classes -> nth_error classes k = Some l -> NoDup l).
Proof.
  intros g fam W WF Hd.
  destruct (colouring_main g fam W WF Hd) as (edim & ec & col & f & K & LD & E & I).
  exists col, K. split; auto. split; [apply (ci_keys _ _ _ _ _ _ I)|].
  split; [exact (ci_len _ _ _ _ _ _ I)|]. split; [|split; [|split]].
  - intros c Hc. exists (f c). split.
    + apply (ci_lt _ _ _ _ _ _ I). now apply (wf_iter_In g W 2 c).
    + apply (in_class_iff g edim f K col ec W I). auto.
  - intros t k t' k' c H H'. apply (in_class_iff g edim f K col ec W I) in H, H'.
    destruct H as (_ & <- & <-), H' as (_ & <- & <-). auto.
  - intros t k c H. apply (in_class_iff g edim f K col ec W I) in H. destruct H as (? & <- & _). auto.
  - intros. eapply class_NoDup; eauto.
Qed.

Lemma colouring_proper : forall rank g fam dm col t t' k c c',
  wf_grid g -> wf_family (g_types g 2) fam -> assign_dofs rank g fam = Ok dm ->
  cell_colouring g fam = Ok col ->
  in_class col t k c -> in_class col t' k c' -> c <> c' -> ~ conflict dm c c'.
Proof.
  intros rank g fam dm col t t' k c c' W WF HA HC H H' Hne.
  assert (Hd : head_dim_pos g fam).
  { intros t0 Ht0. destruct (Nat.eq_dec (el_dim (fam t0)) 0) as [Hz|]; [|lia].
    rewrite (colouring_zero_dim g fam t0 W WF Ht0 Hz) in HC. discriminate. }
  destruct (colouring_main g fam W WF Hd) as (edim & ec & col' & f & K & LD & E & I).
  rewrite HC in E. inversion E; subst col'.
  apply (in_class_iff g edim f K col ec W I) in H, H'.
  destruct H as (Hc & _ & Hf), H' as (Hc' & _ & Hf').
  intros Hcon. apply (conflict_touch rank g fam dm edim W WF HA LD c c' Hne) in Hcon.
  assert (Hi : In c (g_iter g 2)) by (now apply (wf_iter_In g W 2 c)).
  assert (Hi' : In c' (g_iter g 2)) by (now apply (wf_iter_In g W 2 c')).
  apply (ci_proper _ _ _ _ _ _ I c c' Hi Hi' Hne); auto. congruence.
Qed.

Lemma colouring_bound : forall rank g fam dm col K M,
  wf_grid g -> wf_family (g_types g 2) fam -> assign_dofs rank g fam = Ok dm ->
  cell_colouring g fam = Ok col -> class_count col K ->
  conflicts_bounded g dm M ->
  K <= M + 1 /\ forall k, k < K -> exists t c, in_class col t k c.
Proof.
  intros rank g fam dm col K M W WF HA HC HK HM.
  assert (Hd : head_dim_pos g fam).
  { intros t0 Ht0. destruct (Nat.eq_dec (el_dim (fam t0)) 0) as [Hz|]; [|lia].
    rewrite (colouring_zero_dim g fam t0 W WF Ht0 Hz) in HC. discriminate. }
  destruct (colouring_main g fam W WF Hd) as (edim & ec & col' & f & K' & LD & E & I).
  rewrite HC in E. inversion E; subst col'.
  assert (K' = K).
  { destruct (wf_head g W) as (t0 & r & Et).
    destruct (assoc_In_Some ct_eqb t0 col ct_eqb_eq) as (cl & Hcl).
    { assert (Hkeys := ci_keys _ _ _ _ _ _ I). cbn [fst] in Hkeys. rewrite Hkeys, Et. now left. }
    rewrite <- (HK t0 cl Hcl). symmetry. exact (ci_len _ _ _ _ _ _ I t0 cl Hcl). }
  subst K'. split.
  - destruct K as [|K]; [lia|].
    destruct (ci_used _ _ _ _ _ _ I K) as (c & Hi & Hf); [lia|].
    assert (Hc : c < ent_count g 2) by (now apply (wf_iter_In g W 2 c)).
    destruct (greedy_list g edim f (S K) col ec W I c K Hc) as (L & L1 & L2 & L3); [lia|].
    assert (length L <= M); [|lia]. apply (HM c L Hc L2).
    intros c' Hin. destruct (L3 c' Hin) as (A & B & _ & D). split; auto.
    apply (touch_conflict rank g fam dm edim W WF HA LD); auto.
  - intros k Hk. destruct (ci_used _ _ _ _ _ _ I k Hk) as (c & Hi & Hf).
    exists (g_ctype g c), c. apply (in_class_iff g edim f K col ec W I).
    split; auto. now apply (wf_iter_In g W 2 c).
Qed.

Lemma colouring_interior : forall rank g fam dm col K,
  wf_grid g -> wf_family (g_types g 2) fam -> assign_dofs rank g fam = Ok dm ->
  cell_colouring g fam = Ok col -> class_count col K ->
  interior_family (g_types g 2) fam -> 0 < ent_count g 2 -> K = 1.
Proof.
  intros rank g fam dm col K W WF HA HC HK HI Hpos.
  assert (HM : conflicts_bounded g dm 0).
  { intros c L Hc Hn HL. destruct L as [|c' L]; auto. exfalso.
    destruct (HL c' (or_introl eq_refl)) as (Hne & l & l' & n & Hr & Hr' & H1 & H2).
    apply (has_cell_dofs_iff rank g fam dm W WF HA) in Hr. destruct Hr as [_ ->].
    apply (has_cell_dofs_iff rank g fam dm W WF HA) in Hr'. destruct Hr' as [Hc' ->].
    apply Hne. symmetry. eapply (interior_disjoint rank g fam dm W WF HA c c' n); eauto. }
  destruct (colouring_bound rank g fam dm col K 0 W WF HA HC HK HM) as [H _].
  assert (Hd : head_dim_pos g fam).
  { intros t0 Ht0. destruct (Nat.eq_dec (el_dim (fam t0)) 0) as [Hz|]; [|lia].
    rewrite (colouring_zero_dim g fam t0 W WF Ht0 Hz) in HC. discriminate. }
  destruct (colouring_partition g fam W WF Hd) as (col' & K' & E & Hk & HK' & Hex & _).
  rewrite HC in E. inversion E; subst col'.
  destruct (Hex 0 Hpos) as (k & Hk1 & classes & l & A & B & _).
  assert (K = K') by (rewrite <- (HK _ _ A), <- (HK' _ _ A); auto). lia.
Qed.
