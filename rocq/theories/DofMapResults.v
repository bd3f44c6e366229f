(** * Consequences of the DOF map invariant, in terms of what users observe *)
From Verif Require Import Base BaseFacts Topology TopologyFacts DofMap DofMapFacts SpecDof.

Section Results.
Variables (rank : nat) (g : grid) (fam : family) (dm : dofmap).
Hypothesis W : wf_grid g.
Hypothesis WF : wf_family (g_types g 2) fam.
Hypothesis HA : assign_dofs rank g fam = Ok dm.

Lemma the_inv : exists tags, Inv rank g fam (fun c => c < ent_count g 2) (all_subs g) tags dm.
Proof.
  destruct (assign_dofs_inv rank g fam W WF) as (dm' & tags & E & I).
  rewrite HA in E. inversion E; subst. eauto.
Qed.

Lemma listed_edof d e k n : listed dm d e k n <-> nth_error (edof dm d e) k = Some n.
Proof.
  destruct the_inv as (tags & I). destruct (inv_shape _ _ _ _ _ _ _ I) as [S1 S2 S3 S4].
  unfold listed, get_local_dof_numbers. split.
  - intros (l & H & Hk). apply bind_Ok_inv in H. destruct H as (row & H1 & H2).
    apply vget_Ok in H1, H2. unfold edof. rewrite (nth_error_nth _ _ [] H1), (nth_error_nth _ _ [] H2). exact Hk.
  - intros Hk. unfold edof in Hk.
    destruct (nth_error (dm_ents dm) d) as [row|] eqn:E1.
    2:{ rewrite (nth_overflow (dm_ents dm)) in Hk by (now apply nth_error_None).
        rewrite nth_overflow in Hk by (simpl; lia). destruct k; discriminate. }
    rewrite (nth_error_nth _ _ [] E1) in Hk.
    destruct (nth_error row e) as [l|] eqn:E2.
    2:{ rewrite nth_overflow in Hk by (now apply nth_error_None). destruct k; discriminate. }
    rewrite (nth_error_nth _ _ [] E2) in Hk.
    exists l. split; [|exact Hk].
    unfold vget. rewrite E1. cbn [unwrap bind]. rewrite E2. reflexivity.
Qed.

Lemma get_local_Ok d e : d <= 2 -> e < ent_count g d -> get_local_dof_numbers dm d e = Ok (edof dm d e).
Proof.
  intros Hd He. destruct the_inv as (tags & I). destruct (inv_shape _ _ _ _ _ _ _ I) as [S1 S2 S3 S4].
  unfold get_local_dof_numbers. rewrite (vget_nth _ _ []) by lia. cbn [bind].
  rewrite (vget_nth _ _ []) by (rewrite S2; auto). reflexivity.
Qed.

Lemma listed_lt_iff n : (exists d e k, listed dm d e k n) <-> n < dm_size dm.
Proof.
  destruct the_inv as (tags & I).
  rewrite <- (inv_size _ _ _ _ _ _ _ I). split.
  - intros (d & e & k & H). apply listed_edof in H. apply (inv_bij _ _ _ _ _ _ _ I) in H.
    apply nth_error_Some. congruence.
  - intros H. destruct (nth_error tags n) as [[[d e] k]|] eqn:E; [|apply nth_error_None in E; lia].
    exists d, e, k. apply listed_edof. now apply (inv_bij _ _ _ _ _ _ _ I).
Qed.

Lemma listed_unique n d e k d' e' k' :
  listed dm d e k n -> listed dm d' e' k' n -> d = d' /\ e = e' /\ k = k'.
Proof.
  destruct the_inv as (tags & I). rewrite !listed_edof, <- !(inv_bij _ _ _ _ _ _ _ I).
  intros H H'. rewrite H in H'. inversion H'. auto.
Qed.

(** The row of a cell. *)
Lemma cell_row c : c < ent_count g 2 -> has_cell_dofs dm c (nth c (dm_cells dm) []).
Proof.
  intros Hc. destruct the_inv as (tags & I). destruct (inv_shape _ _ _ _ _ _ _ I) as [S1 S2 S3 S4].
  unfold has_cell_dofs, cell_dofs, cell_dofs_unchecked. rewrite S4.
  rewrite (proj2 (Nat.ltb_lt _ _) Hc). rewrite (uget_nth _ _ []) by (rewrite S4; exact Hc). reflexivity.
Qed.

Lemma has_cell_dofs_iff c l :
  has_cell_dofs dm c l <-> c < ent_count g 2 /\ l = nth c (dm_cells dm) [].
Proof.
  split.
  - intros H. assert (c < ent_count g 2).
    { destruct the_inv as (tags & I). destruct (inv_shape _ _ _ _ _ _ _ I) as [S1 S2 S3 S4].
      unfold has_cell_dofs, cell_dofs in H. rewrite S4 in H.
      destruct (Nat.ltb_spec c (ent_count g 2)); auto. discriminate. }
    split; auto. assert (H2 := cell_row c H0). unfold has_cell_dofs in *. congruence.
  - intros [H ->]. now apply cell_row.
Qed.

Lemma cell_dofs_None c : ~ c < ent_count g 2 -> cell_dofs dm c = Ok None.
Proof.
  intros H. destruct the_inv as (tags & I). destruct (inv_shape _ _ _ _ _ _ _ I) as [S1 S2 S3 S4].
  unfold cell_dofs. rewrite S4. destruct (Nat.ltb_spec c (ent_count g 2)); auto. lia.
Qed.

Lemma cell_row_length c : c < ent_count g 2 -> length (nth c (dm_cells dm) []) = el_dim (fam (g_ctype g c)).
Proof. intros Hc. destruct the_inv as (tags & I). now apply (inv_begun _ _ _ _ _ _ _ I). Qed.

(** Where a DOF of a cell comes from. *)
Lemma cell_row_origin c x n :
  c < ent_count g 2 -> nth_error (nth c (dm_cells dm) []) x = Some n ->
  exists d i e l k, sub_at g c d i e /\ el_edofs (fam (g_ctype g c)) d i = Some l /\
    nth_error l k = Some x /\ nth_error (edof dm d e) k = Some n.
Proof.
  intros Hc Hx. destruct the_inv as (tags & I).
  assert (WE := wff_el _ _ WF _ (wf_ctype g W c Hc)).
  assert (Hlt : x < el_dim (fam (g_ctype g c))).
  { rewrite <- (cell_row_length c Hc). apply nth_error_Some. congruence. }
  destruct (we_cover _ _ x WE Hlt) as (d & i & l & k & Hd & Hi & El & Ek).
  rewrite <- (wf_sub_length g W c d Hc Hd) in Hi.
  destruct (nth_error (g_sub g c d) i) as [e|] eqn:Ee; [|apply nth_error_None in Ee; lia].
  assert (Hv : all_subs g c d i e) by (repeat split; auto).
  destruct (inv_cell _ _ _ _ _ _ _ I c d i e l k x Hv El Ek) as (n' & H1 & H2).
  rewrite Hx in H1. inversion H1; subst n'.
  exists d, i, e, l, k. repeat split; auto.
Qed.

Lemma cell_row_entity c d i e l k x :
  sub_at g c d i e -> el_edofs (fam (g_ctype g c)) d i = Some l -> nth_error l k = Some x ->
  exists n, nth_error (nth c (dm_cells dm) []) x = Some n /\ nth_error (edof dm d e) k = Some n.
Proof.
  intros Hs El Ek. destruct the_inv as (tags & I).
  exact (inv_cell _ _ _ _ _ _ _ I c d i e l k x Hs El Ek).
Qed.

Lemma edof_size d e k n : nth_error (edof dm d e) k = Some n -> n < dm_size dm.
Proof. intros H. apply listed_lt_iff. exists d, e, k. now apply listed_edof. Qed.

Lemma cell_row_lt c n : c < ent_count g 2 -> In n (nth c (dm_cells dm) []) -> n < dm_size dm.
Proof.
  intros Hc H. apply In_nth_error in H. destruct H as (x & H).
  destruct (cell_row_origin c x n Hc H) as (d & i & e & l & k & _ & _ & _ & Hn).
  eapply edof_size; eauto.
Qed.

Lemma edof_unique n d e k d' e' k' :
  nth_error (edof dm d e) k = Some n -> nth_error (edof dm d' e') k' = Some n -> d = d' /\ e = e' /\ k = k'.
Proof. rewrite <- !listed_edof. apply listed_unique. Qed.

Lemma cell_row_NoDup c : c < ent_count g 2 -> NoDup (nth c (dm_cells dm) []).
Proof.
  intros Hc. apply NoDup_nth_error. intros x y Hx E.
  destruct (nth_error (nth c (dm_cells dm) []) x) as [n|] eqn:Ex; [|apply nth_error_None in Ex; lia].
  symmetry in E.
  destruct (cell_row_origin c x n Hc Ex) as (d & i & e & l & k & (_ & Hd & Hs) & El & Ek & En).
  destruct (cell_row_origin c y n Hc E) as (d' & i' & e' & l' & k' & (_ & Hd' & Hs') & El' & Ek' & En').
  destruct (edof_unique _ _ _ _ _ _ _ En En') as (<- & <- & <-).
  assert (i = i').
  { eapply (NoDup_nth_error_inj (g_sub g c d)); eauto. now apply wf_sub_nodup. }
  subst i'. rewrite El in El'. inversion El'; subst l'. congruence.
Qed.

(** Length of the DOF list of an entity. *)
Lemma edof_length c d i e : sub_at g c d i e -> length (edof dm d e) = el_ndofs (fam (g_ctype g c)) d i.
Proof.
  intros (Hc & Hd & Hs). destruct the_inv as (tags & I).
  assert (WE := wff_el _ _ WF _ (wf_ctype g W c Hc)).
  assert (Hi : i < ref_count (g_ctype g c) d).
  { rewrite <- (wf_sub_length g W c d Hc Hd). apply nth_error_Some. congruence. }
  destruct (we_some _ _ WE d i Hd Hi) as (l & El).
  assert (Hnd := ent_ndofs_ok g fam W WF c d i e l Hc Hd Hs El).
  unfold el_ndofs. rewrite El. rewrite Hnd.
  destruct (inv_len _ _ _ _ _ _ _ I d e) as [H|[_ H]]; auto.
  rewrite H. simpl. destruct l as [|x l].
  - simpl in Hnd. auto.
  - destruct (inv_cell _ _ _ _ _ _ _ I c d i e (x :: l) 0 x) as (n & _ & Hn); auto.
    + repeat split; auto.
    + rewrite H in Hn. discriminate.
Qed.

Lemma edof_untouched d e : (forall c, ~ contains g c d e) -> edof dm d e = [].
Proof.
  intros H. destruct the_inv as (tags & I).
  destruct (edof dm d e) as [|n r] eqn:E; auto.
  destruct (inv_from _ _ _ _ _ _ _ I d e) as (c & i & l & (Hc & Hd & Hs) & _); [congruence|].
  exfalso. apply (H c). repeat split; auto. eapply nth_error_In; eauto.
Qed.

Lemma edof_out d e : ~ (d <= 2 /\ e < ent_count g d) -> edof dm d e = [].
Proof.
  intros H. apply edof_untouched. intros c (Hc & Hd & He). apply H. split; auto.
  eapply wf_sub_lt; eauto.
Qed.

(** All DOF numbers, entity by entity. *)
Definition all_numbers : list nat :=
  flat_map (fun d => flat_map (edof dm d) (seq 0 (ent_count g d))) (seq 0 3).

Lemma In_all_numbers n : In n all_numbers <-> n < dm_size dm.
Proof.
  rewrite <- listed_lt_iff. unfold all_numbers. rewrite in_flat_map. split.
  - intros (d & _ & H). apply in_flat_map in H. destruct H as (e & _ & H).
    apply In_nth_error in H. destruct H as (k & H). exists d, e, k. now apply listed_edof.
  - intros (d & e & k & H). apply listed_edof in H.
    destruct (le_lt_dec d 2) as [Hd|Hd]; [destruct (lt_dec e (ent_count g d)) as [He|He]|].
    + exists d. split; [apply in_seq; lia|]. apply in_flat_map. exists e.
      split; [apply in_seq; lia|]. eapply nth_error_In; eauto.
    + rewrite edof_out in H by tauto. destruct k; discriminate.
    + rewrite edof_out in H by lia. destruct k; discriminate.
Qed.

Lemma NoDup_flat_map {A B} (f : A -> list B) l :
  NoDup l -> (forall x, In x l -> NoDup (f x)) ->
  (forall x y z, In x l -> In y l -> In z (f x) -> In z (f y) -> x = y) ->
  NoDup (flat_map f l).
Proof.
  induction l as [|a t IH]; intros Hn Hf Hd; simpl; [constructor|].
  inversion Hn; subst. apply NoDup_app_iff. split; [apply Hf; now left|]. split.
  - apply IH; auto.
    + intros; apply Hf; now right.
    + intros x y z Hx Hy. apply Hd; now right.
  - intros z Hz Hz'. apply in_flat_map in Hz'. destruct Hz' as (b & Hb & Hz').
    assert (a = b) by (apply (Hd a b z); auto; [now left|now right]). subst. auto.
Qed.

Lemma NoDup_all_numbers : NoDup all_numbers.
Proof.
  unfold all_numbers. apply NoDup_flat_map.
  - apply seq_NoDup.
  - intros d _. apply NoDup_flat_map.
    + apply seq_NoDup.
    + intros e _. apply NoDup_nth_error. intros k1 k2 Hk E.
      destruct (nth_error (edof dm d e) k1) as [n|] eqn:E1; [|apply nth_error_None in E1; lia].
      symmetry in E. destruct (edof_unique _ _ _ _ _ _ _ E1 E) as (_ & _ & H). exact H.
    + intros e e' n _ _ H H'. apply In_nth_error in H, H'.
      destruct H as (k & H), H' as (k' & H').
      destruct (edof_unique _ _ _ _ _ _ _ H H') as (_ & E & _). exact E.
  - intros d d' n _ _ H H'. apply in_flat_map in H, H'.
    destruct H as (e & _ & H), H' as (e' & _ & H').
    apply In_nth_error in H, H'. destruct H as (k & H), H' as (k' & H').
    destruct (edof_unique _ _ _ _ _ _ _ H H') as (E & _). exact E.
Qed.

Lemma length_all_numbers : length all_numbers = dm_size dm.
Proof.
  rewrite <- (seq_length (dm_size dm) 0). apply Permutation_length.
  apply NoDup_Permutation.
  - apply NoDup_all_numbers.
  - apply seq_NoDup.
  - intros n. rewrite In_all_numbers, in_seq. lia.
Qed.

Lemma length_flat_map {A B} (f : A -> list B) l :
  length (flat_map f l) = sum_list (map (fun x => length (f x)) l).
Proof. induction l as [|x t IH]; simpl; auto. rewrite app_length, IH. reflexivity. Qed.

Lemma sum_list_map_ext {A} (f h : A -> nat) l :
  (forall x, In x l -> f x = h x) -> sum_list (map f l) = sum_list (map h l).
Proof.
  induction l as [|x t IH]; intros H; simpl; auto.
  rewrite H by now left. rewrite IH; auto. intros; apply H; now right.
Qed.

Lemma size_sum N : dof_count g fam N -> dm_size dm = sum_entities g N.
Proof.
  intros [HN1 HN2]. rewrite <- length_all_numbers. unfold all_numbers, sum_entities.
  rewrite length_flat_map. apply sum_list_map_ext. intros d Hd. apply in_seq in Hd.
  rewrite length_flat_map. apply sum_list_map_ext. intros e He. apply in_seq in He.
  destruct (existsb (fun c => memb e (g_sub g c d)) (seq 0 (ent_count g 2))) eqn:E.
  - apply existsb_exists in E. destruct E as (c & Hc & Hin). apply in_seq in Hc.
    apply memb_In in Hin. apply In_nth_error in Hin. destruct Hin as (i & Hi).
    assert (Hs : sub_at g c d i e) by (repeat split; auto; lia).
    rewrite (edof_length c d i e Hs). symmetry. now apply HN1.
  - assert (Hun : forall c, ~ contains g c d e).
    { intros c (Hc & _ & Hin). apply Bool.not_true_iff_false in E. apply E.
      apply existsb_exists. exists c. split; [apply in_seq; lia|]. now apply memb_In. }
    rewrite edof_untouched by auto. rewrite HN2; auto.
Qed.

(** Sharing a DOF means sharing an entity. *)
Lemma shared_dof c c' n :
  c < ent_count g 2 -> c' < ent_count g 2 ->
  In n (nth c (dm_cells dm) []) -> In n (nth c' (dm_cells dm) []) ->
  exists d e, contains g c d e /\ contains g c' d e /\ In n (edof dm d e).
Proof.
  intros Hc Hc' H H'. apply In_nth_error in H, H'. destruct H as (x & H), H' as (y & H').
  destruct (cell_row_origin c x n Hc H) as (d & i & e & l & k & Hs & El & Ek & En).
  destruct (cell_row_origin c' y n Hc' H') as (d' & i' & e' & l' & k' & Hs' & El' & Ek' & En').
  destruct (edof_unique _ _ _ _ _ _ _ En En') as (<- & <- & <-).
  exists d, e. split; [|split].
  - destruct Hs as (? & ? & ?). repeat split; auto. eapply nth_error_In; eauto.
  - destruct Hs' as (? & ? & ?). repeat split; auto. eapply nth_error_In; eauto.
  - eapply nth_error_In; eauto.
Qed.

Lemma interior_disjoint c c' n :
  interior_family (g_types g 2) fam ->
  c < ent_count g 2 -> c' < ent_count g 2 ->
  In n (nth c (dm_cells dm) []) -> In n (nth c' (dm_cells dm) []) -> c = c'.
Proof.
  intros HI Hc Hc' H H'.
  destruct (shared_dof c c' n Hc Hc' H H') as (d & e & (_ & Hd & He) & (_ & _ & He') & Hn).
  destruct (Nat.eq_dec d 2) as [->|Hne].
  - rewrite (wf_sub_cell g W c Hc) in He. rewrite (wf_sub_cell g W c' Hc') in He'.
    destruct He as [<-|[]], He' as [<-|[]]. reflexivity.
  - exfalso. apply In_nth_error in He. destruct He as (i & Hi).
    assert (Hs : sub_at g c d i e) by (repeat split; auto).
    assert (L := edof_length c d i e Hs).
    rewrite HI in L by (auto using wf_ctype; lia).
    destruct (edof dm d e); [destruct Hn|discriminate].
Qed.

Lemma interior_dim t :
  In t (g_types g 2) -> interior_family (g_types g 2) fam -> el_ndofs (fam t) 2 0 = el_dim (fam t).
Proof.
  intros Ht HI. assert (WE := wff_el _ _ WF _ Ht).
  assert (L := Permutation_length (we_part _ _ WE)). rewrite seq_length in L.
  unfold el_all_dofs in L. cbn [seq flat_map] in L. rewrite app_nil_r, !app_length in L.
  assert (Hz : forall d, d < 2 ->
     length (flat_map (fun i => match el_edofs (fam t) d i with Some l => l | None => [] end) (seq 0 (ref_count t d))) = 0).
  { intros d Hd. rewrite length_flat_map. induction (seq 0 (ref_count t d)) as [|i s IH]; simpl; auto.
    rewrite IH, Nat.add_0_r. assert (Hx := HI t d i Ht Hd). unfold el_ndofs in Hx.
    destruct (el_edofs (fam t) d i); auto. }
  rewrite !Hz in L by lia. simpl in L. rewrite <- L.
  destruct (wf_types2_surface g W t Ht) as [-> | ->]; simpl; rewrite app_nil_r;
    unfold el_ndofs; destruct (el_edofs _ 2 0); reflexivity.
Qed.

Lemma interior_size :
  interior_family (g_types g 2) fam ->
  dm_size dm = sum_list (map (fun c => el_dim (fam (g_ctype g c))) (seq 0 (ent_count g 2))).
Proof.
  intros HI.
  rewrite (size_sum (fun d e => if d =? 2 then if e <? ent_count g 2 then el_dim (fam (g_ctype g e)) else 0 else 0)).
  - unfold sum_entities. cbn [seq map Nat.eqb]. unfold sum_list at 1. cbn [fold_right].
    assert (Z : forall l : list nat, sum_list (map (fun _ => 0) l) = 0) by (induction l; simpl; auto).
    rewrite !Z, Nat.add_0_r, !Nat.add_0_l.
    apply sum_list_map_ext. intros c Hc. apply in_seq in Hc.
    destruct (Nat.ltb_spec c (ent_count g 2)); auto. lia.
  - split.
    + intros c d i e (Hc & Hd & Hs). destruct (Nat.eqb_spec d 2) as [->|Hne].
      * rewrite (wf_sub_cell g W c Hc) in Hs. destruct i as [|i]; [|destruct i; discriminate].
        inversion Hs; subst e. rewrite (proj2 (Nat.ltb_lt _ _) Hc).
        symmetry. apply interior_dim; auto using wf_ctype.
      * symmetry. apply HI; auto using wf_ctype. lia.
    + intros d e H. destruct (Nat.eqb_spec d 2) as [->|Hne]; auto.
      destruct (Nat.ltb_spec e (ent_count g 2)); auto. exfalso. apply (H e).
      repeat split; auto. rewrite (wf_sub_cell g W); auto. now left.
Qed.

Lemma owner_spec n d e k :
  nth_error (edof dm d e) k = Some n -> nth_error (dm_owner dm) n = Some (own_of rank g (d, e, k)).
Proof.
  intros H. destruct the_inv as (tags & I). apply (inv_bij _ _ _ _ _ _ _ I) in H.
  rewrite (inv_owner _ _ _ _ _ _ _ I). rewrite nth_error_map, H. reflexivity.
Qed.

Lemma owner_length : length (dm_owner dm) = dm_size dm.
Proof.
  destruct the_inv as (tags & I). rewrite (inv_owner _ _ _ _ _ _ _ I), map_length.
  apply (inv_size _ _ _ _ _ _ _ I).
Qed.
End Results.

Lemma assign_dofs_total rank g fam :
  wf_grid g -> wf_family (g_types g 2) fam -> exists dm, assign_dofs rank g fam = Ok dm.
Proof.
  intros W WF. destruct (assign_dofs_inv rank g fam W WF) as (dm & _ & E & _). eauto.
Qed.

Lemma assign_dofs_tdim_panic rank g fam : 2 < g_tdim g -> assign_dofs rank g fam = Panic.
Proof. intros H. unfold assign_dofs. now rewrite (proj2 (Nat.ltb_lt _ _) H). Qed.

(** ** Positions along a shared edge *)

Lemma shared_edge_ends g c c' i i' e :
  wf_grid g -> sub_at g c 1 i e -> sub_at g c' 1 i' e ->
  exists a b a' b' va vb,
    nth_error (ref_edges (g_ctype g c)) i = Some (a, b) /\
    nth_error (ref_edges (g_ctype g c')) i' = Some (a', b') /\
    nth a (g_sub g c 0) 0 = va /\ nth b (g_sub g c 0) 0 = vb /\ va <> vb /\
    ((nth a' (g_sub g c' 0) 0 = va /\ nth b' (g_sub g c' 0) 0 = vb) \/
     (nth a' (g_sub g c' 0) 0 = vb /\ nth b' (g_sub g c' 0) 0 = va)).
Proof.
  intros W (Hc & _ & Hs) (Hc' & _ & Hs').
  assert (Ht := wf_cell_surface g c W Hc). assert (Ht' := wf_cell_surface g c' W Hc').
  assert (Hi : i < length (ref_edges (g_ctype g c))).
  { rewrite length_ref_edges by auto. rewrite <- (wf_sub_length g W c 1 Hc) by lia.
    apply nth_error_Some. congruence. }
  assert (Hi' : i' < length (ref_edges (g_ctype g c'))).
  { rewrite length_ref_edges by auto. rewrite <- (wf_sub_length g W c' 1 Hc') by lia.
    apply nth_error_Some. congruence. }
  destruct (nth_error (ref_edges (g_ctype g c)) i) as [[a b]|] eqn:E; [|apply nth_error_None in E; lia].
  destruct (nth_error (ref_edges (g_ctype g c')) i') as [[a' b']|] eqn:E'; [|apply nth_error_None in E'; lia].
  destruct (ref_edges_lt _ _ _ _ Ht E) as (Ha & Hb & Hab).
  destruct (ref_edges_lt _ _ _ _ Ht' E') as (Ha' & Hb' & _).
  rewrite <- (wf_sub_length g W c 0 Hc) in Ha, Hb by lia.
  rewrite <- (wf_sub_length g W c' 0 Hc') in Ha', Hb' by lia.
  assert (Na := nth_error_nth' (g_sub g c 0) 0 Ha). assert (Nb := nth_error_nth' (g_sub g c 0) 0 Hb).
  assert (Na' := nth_error_nth' (g_sub g c' 0) 0 Ha'). assert (Nb' := nth_error_nth' (g_sub g c' 0) 0 Hb').
  assert (Hx := wf_edge g W c c' i i' e a b a' b' _ _ _ _ Hc Hc' Hs Hs' E E' Na Nb Na' Nb').
  exists a, b, a', b', (nth a (g_sub g c 0) 0), (nth b (g_sub g c 0) 0).
  repeat split; auto.
  - intros Heq. assert (a = b); [|lia].
    eapply (NoDup_nth_error_inj (g_sub g c 0)); eauto; [apply wf_sub_nodup; auto; lia|]. congruence.
  - destruct Hx as [[H1 H2]|[H1 H2]]; [left|right]; auto.
Qed.

Lemma edge_point_same g c c' i i' e m k :
  wf_grid g -> sub_at g c 1 i e -> sub_at g c' 1 i' e -> k < m ->
  ((forall v, edge_point_weight g c i m k v = edge_point_weight g c' i' m k v) <->
   (edge_start g c i = edge_start g c' i' \/ m = 2 * k + 1)).
Proof.
  intros W Hs Hs' Hk.
  destruct (shared_edge_ends g c c' i i' e W Hs Hs') as (a & b & a' & b' & va & vb & E & E' & Hva & Hvb & Hne & Hor).
  unfold edge_point_weight, edge_start. rewrite E, E', Hva, Hvb.
  destruct Hor as [[-> ->]|[-> ->]].
  - split; auto.
  - split.
    + intros H. right. specialize (H va). rewrite Nat.eqb_refl in H.
      rewrite (proj2 (Nat.eqb_neq vb va)) in H by auto. lia.
    + intros [H|H]; [congruence|]. intros v.
      destruct (Nat.eqb_spec va v), (Nat.eqb_spec vb v); subst; try congruence; lia.
Qed.
