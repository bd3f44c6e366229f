(** * Facts about grids and elements: the assumptions on the external crates can be met *)
From Verif Require Import Base BaseFacts Topology.

Lemma ct_eqb_eq a b : ct_eqb a b = true <-> a = b.
Proof. destruct a, b; simpl; split; intros H; congruence. Qed.

Lemma ct_eqb_refl a : ct_eqb a a = true.
Proof. now apply ct_eqb_eq. Qed.

Lemma ct_eqb_neq a b : ct_eqb a b = false <-> a <> b.
Proof. rewrite <- ct_eqb_eq. destruct (ct_eqb a b); split; intros; congruence. Qed.

Lemma pair_eqb_eq p q : pair_eqb p q = true <-> p = q.
Proof.
  unfold pair_eqb. destruct p as [a b], q as [c d]. simpl.
  rewrite andb_true_iff, !Nat.eqb_eq. split.
  - intros [-> ->]. reflexivity.
  - intros H. inversion H. auto.
Qed.

Lemma existsb_pair_In x l : existsb (pair_eqb x) l = true <-> In x l.
Proof.
  rewrite existsb_exists. split.
  - intros (y & H & E). apply pair_eqb_eq in E. now subst.
  - intros H. exists x. split; auto. now apply pair_eqb_eq.
Qed.

Lemma dedup_fold_spec l acc :
  NoDup acc ->
  NoDup (fold_left add_new l acc) /\
  (forall x, In x (fold_left add_new l acc) <-> In x acc \/ In x l).
Proof.
  revert acc. induction l as [|y t IH]; intros acc Hacc; simpl.
  - split; auto. intros x. tauto.
  - assert (H1 : NoDup (add_new acc y)).
    { unfold add_new. destruct (existsb (pair_eqb y) acc) eqn:E; auto.
      assert (~ In y acc) by (rewrite <- existsb_pair_In; congruence).
      apply NoDup_rev in Hacc. rewrite <- (rev_involutive (acc ++ [y])). apply NoDup_rev.
      rewrite rev_app_distr. simpl. constructor; auto. now rewrite <- in_rev. }
    assert (H2 : forall x, In x (add_new acc y) <-> In x acc \/ x = y).
    { intros x. unfold add_new. destruct (existsb (pair_eqb y) acc) eqn:E.
      - apply existsb_pair_In in E. split; [tauto|]. intros [H| ->]; auto.
      - rewrite in_app_iff. simpl. intuition. }
    destruct (IH _ H1) as [H3 H4]. split; auto.
    intros x. rewrite H4, H2. intuition.
Qed.

Lemma dedup_NoDup l : NoDup (dedup l).
Proof. apply (dedup_fold_spec l []). constructor. Qed.

Lemma dedup_In l x : In x (dedup l) <-> In x l.
Proof.
  unfold dedup. destruct (dedup_fold_spec l []) as [_ H]; [constructor|].
  rewrite H. simpl. tauto.
Qed.

Lemma index_of_nth x l : In x l -> nth_error l (index_of x l) = Some x.
Proof.
  induction l as [|y t IH]; simpl; [tauto|].
  destruct (pair_eqb x y) eqn:E.
  - apply pair_eqb_eq in E. subst. reflexivity.
  - intros [->|H]; simpl; auto.
    assert (pair_eqb x x = true) by now apply pair_eqb_eq. congruence.
Qed.

Lemma index_of_lt x l : In x l -> index_of x l < length l.
Proof. intros H. apply nth_error_Some. now rewrite index_of_nth. Qed.

Lemma index_of_inj x y l : In x l -> In y l -> index_of x l = index_of y l -> x = y.
Proof.
  intros Hx Hy E. apply index_of_nth in Hx, Hy. rewrite E in Hx. congruence.
Qed.

Lemma norm_pair_cases a b : norm_pair (a, b) = (a, b) \/ norm_pair (a, b) = (b, a).
Proof. unfold norm_pair. destruct (a <=? b); auto. Qed.

Lemma norm_pair_eq a b c d :
  norm_pair (a, b) = norm_pair (c, d) -> (a = c /\ b = d) \/ (a = d /\ b = c).
Proof.
  unfold norm_pair. destruct (Nat.leb_spec a b), (Nat.leb_spec c d); intros H1; inversion H1; subst; auto.
Qed.

Lemma norm_pair_swap a b : norm_pair (a, b) = norm_pair (b, a).
Proof.
  unfold norm_pair. destruct (Nat.leb_spec a b), (Nat.leb_spec b a); auto; try lia.
  assert (a = b) by lia. now subst.
Qed.

Lemma length3 {A} (l : list A) : length l = 3 -> exists a b c, l = [a; b; c].
Proof. destruct l as [|a [|b [|c [|]]]]; simpl; intros; try lia. eauto. Qed.

Lemma length4 {A} (l : list A) : length l = 4 -> exists a b c d, l = [a; b; c; d].
Proof. destruct l as [|a [|b [|c [|d [|]]]]]; simpl; intros; try lia. eauto 6. Qed.

Lemma cell_edges_NoDup t vs :
  surface_type t -> length vs = ref_count t 0 -> NoDup vs -> NoDup (cell_edges t vs).
Proof.
  intros [-> | ->] Hl Hn; simpl in Hl.
  - apply length3 in Hl. destruct Hl as (a & b & c & ->).
    inversion Hn as [|? ? H1 Hn1]; subst. inversion Hn1 as [|? ? H2 Hn2]; subst.
    simpl in H1, H2.
    assert (a <> b /\ a <> c /\ b <> c) by (repeat split; intros ->; tauto).
    unfold cell_edges. cbn [map ref_edges nth fst snd].
    repeat constructor; simpl; try tauto;
      intros H'; repeat destruct H' as [H'|H']; try tauto;
      apply norm_pair_eq in H'; intuition congruence.
  - apply length4 in Hl. destruct Hl as (a & b & c & d & ->).
    inversion Hn as [|? ? H1 Hn1]; subst. inversion Hn1 as [|? ? H2 Hn2]; subst.
    inversion Hn2 as [|? ? H3 Hn3]; subst.
    simpl in H1, H2, H3.
    assert (a <> b /\ a <> c /\ a <> d /\ b <> c /\ b <> d /\ c <> d) by (repeat split; intros ->; tauto).
    unfold cell_edges. cbn [map ref_edges nth fst snd].
    repeat constructor; simpl; try tauto;
      intros H'; repeat destruct H' as [H'|H']; try tauto;
      apply norm_pair_eq in H'; intuition congruence.
Qed.

Lemma length_cell_edges t vs : surface_type t -> length (cell_edges t vs) = ref_count t 1.
Proof. intros [-> | ->]; reflexivity. Qed.

Lemma ref_edges_lt t i a b :
  surface_type t -> nth_error (ref_edges t) i = Some (a, b) -> a < ref_count t 0 /\ b < ref_count t 0 /\ a < b.
Proof.
  intros [-> | ->]; simpl;
    do 5 (destruct i as [|i]; [intros H; inversion H; lia|simpl]); destruct i; discriminate.
Qed.

Lemma length_ref_edges t : surface_type t -> length (ref_edges t) = ref_count t 1.
Proof. intros [-> | ->]; reflexivity. Qed.

Lemma NoDup_map_inj_in {A B} (f : A -> B) l :
  (forall x y, In x l -> In y l -> f x = f y -> x = y) -> NoDup l -> NoDup (map f l).
Proof.
  intros Hf. induction l as [|x t IH]; intros Hn; simpl; [constructor|].
  inversion Hn; subst. constructor.
  - intros Hin. apply in_map_iff in Hin. destruct Hin as (y & E & Hy).
    apply Hf in E; [subst; auto|right; auto|left; auto].
  - apply IH; auto. intros. apply Hf; auto; now right.
Qed.

(** Every grid made by the builder from valid vertex lists is well-formed. *)
Lemma grid_of_cells_wf id t npts cells :
  valid_cells t npts cells -> wf_grid (grid_of_cells id t npts cells).
Proof.
  intros [Ht Hc].
  assert (Hnb : t <> Point /\ t <> Interval) by (destruct Ht as [-> | ->]; split; discriminate).
  assert (E0 : ent_count (grid_of_cells id t npts cells) 0 = npts)
    by (cbn; lia).
  assert (E1 : ent_count (grid_of_cells id t npts cells) 1 = length (grid_edges t cells))
    by (cbn; lia).
  assert (E2 : ent_count (grid_of_cells id t npts cells) 2 = length cells).
  { destruct Ht as [-> | ->]; cbn; lia. }
  assert (Hcell : forall c, c < length cells -> In (nth c cells []) cells) by (intros; now apply nth_In).
  assert (Hedge : forall c e, c < length cells -> In e (cell_edges t (nth c cells [])) ->
                  In e (grid_edges t cells)).
  { intros c e Hlt He. unfold grid_edges. apply dedup_In. apply in_flat_map. eauto. }
  constructor.
  - reflexivity.
  - reflexivity.
  - reflexivity.
  - cbn. repeat constructor. simpl. tauto.
  - cbn. discriminate.
  - cbn. intros u [<-|[]]. exact Ht.
  - intros d Hd. do 3 (destruct d as [|d]; [apply seq_NoDup|]). lia.
  - intros d i Hd.
    do 3 (destruct d as [|d]; [cbn [g_iter grid_of_cells]; rewrite in_seq; lia|]). lia.
  - intros c _. cbn. now left.
  - intros c d Hlt Hd. rewrite E2 in Hlt.
    destruct d as [|[|[|d]]]; cbn [g_sub g_ctype grid_of_cells]; try lia.
    + apply Hc. auto.
    + rewrite map_length. now apply length_cell_edges.
    + destruct Ht as [-> | ->]; reflexivity.
  - intros c d e Hlt Hd He. rewrite E2 in Hlt.
    destruct d as [|[|[|d]]]; cbn [g_sub grid_of_cells] in He; try lia.
    + rewrite E0. destruct (Hc _ (Hcell _ Hlt)) as (_ & _ & H). auto.
    + rewrite E1. apply in_map_iff in He. destruct He as (p & <- & Hp).
      apply index_of_lt. eauto.
    + rewrite E2. destruct He as [<-|[]]. exact Hlt.
  - intros c d Hlt Hd. rewrite E2 in Hlt.
    destruct (Hc _ (Hcell _ Hlt)) as (Hl & Hn & _).
    destruct d as [|[|[|d]]]; cbn [g_sub grid_of_cells]; try lia.
    + exact Hn.
    + apply NoDup_map_inj_in; [|now apply cell_edges_NoDup].
      intros x y Hx Hy E. apply (index_of_inj x y (grid_edges t cells)); [eauto|eauto|exact E].
    + repeat constructor. simpl. tauto.
  - reflexivity.
  - intros c c' i i' e a b a' b' va vb va' vb' Hlt Hlt' Hi Hi' Ha Ha' Hva Hvb Hva' Hvb'.
    rewrite E2 in Hlt, Hlt'. cbn [g_sub g_ctype grid_of_cells] in *.
    rewrite nth_error_map in Hi, Hi'.
    unfold cell_edges in Hi, Hi' at 1. rewrite nth_error_map in Hi, Hi'.
    rewrite Ha in Hi. rewrite Ha' in Hi'. simpl in Hi, Hi'.
    inversion Hi as [E]. inversion Hi' as [E'].
    rewrite (nth_error_nth _ _ 0 Hva), (nth_error_nth _ _ 0 Hvb) in E.
    rewrite (nth_error_nth _ _ 0 Hva'), (nth_error_nth _ _ 0 Hvb') in E'.
    rewrite <- E' in E. apply norm_pair_eq. eapply index_of_inj; [| |exact E].
    + apply (Hedge c); auto. unfold cell_edges. apply in_map_iff. exists (a, b). split.
      * cbn [fst snd]. now rewrite (nth_error_nth _ _ 0 Hva), (nth_error_nth _ _ 0 Hvb).
      * eapply nth_error_In; eauto.
    + apply (Hedge c'); auto. unfold cell_edges. apply in_map_iff. exists (a', b'). split.
      * cbn [fst snd]. now rewrite (nth_error_nth _ _ 0 Hva'), (nth_error_nth _ _ 0 Hvb').
      * eapply nth_error_In; eauto.
  - intros v _. cbn [g_conn grid_of_cells]. apply NoDup_filter. apply seq_NoDup.
  - intros v c _. rewrite E2. cbn [g_conn g_sub grid_of_cells].
    rewrite filter_In, in_seq, memb_In. split.
    + intros [H1 H2]. split; [lia|auto].
    + intros [H1 H2]. split; [lia|auto].
Qed.

Lemma with_ownership_wf g own : wf_grid g -> wf_grid (with_ownership g own).
Proof. intros H. destruct H. constructor; auto. Qed.

Lemma wf_cell_surface g c : wf_grid g -> c < ent_count g 2 -> surface_type (g_ctype g c).
Proof. intros W H. apply (wf_types2_surface g W). now apply wf_ctype. Qed.

(** ** Elements *)

Lemma flat_map_seq_blocks a n k :
  flat_map (fun i => seq (a + i * n) n) (seq 0 k) = seq a (k * n).
Proof.
  induction k as [|k IH]; [reflexivity|].
  rewrite seq_S, flat_map_app, IH. cbn [flat_map]. rewrite app_nil_r.
  replace (S k * n) with (k * n + n) by lia. now rewrite seq_app.
Qed.

Lemma flat_map_ext_in {A B} (f g : A -> list B) l :
  (forall x, In x l -> f x = g x) -> flat_map f l = flat_map g l.
Proof.
  induction l as [|x t IH]; intros H; simpl; auto.
  rewrite H by now left. f_equal. apply IH. intros. apply H. now right.
Qed.

Lemma flat_map_singleton_id l : flat_map (fun i : nat => [i]) l = l.
Proof. induction l; simpl; congruence. Qed.

Lemma flat_map_nil_all {A B} (f : A -> list B) l : (forall x, In x l -> f x = []) -> flat_map f l = [].
Proof. induction l as [|x t IH]; intros H; simpl; auto. rewrite H by now left. apply IH. intros; apply H; now right. Qed.

Lemma lagrange_wf_element p t : wf_element t (lagrange p t).
Proof.
  constructor.
  - intros d i Hd Hi. cbn [el_edofs lagrange].
    rewrite (proj2 (Nat.ltb_lt _ _) Hi).
    do 3 (destruct d as [|d]; [eauto|]). lia.
  - intros d i H. cbn [el_edofs lagrange].
    destruct (Nat.ltb_spec i (ref_count t d)); auto.
    do 3 (destruct d as [|d]; [exfalso; apply H; split; lia|]). reflexivity.
  - unfold el_all_dofs. cbn [seq flat_map]. rewrite app_nil_r.
    rewrite (flat_map_ext_in _ (fun i => [i]) (seq 0 (ref_count t 0))).
    2:{ intros i Hi. apply in_seq in Hi. cbn [el_edofs lagrange].
        rewrite (proj2 (Nat.ltb_lt i (ref_count t 0))) by lia. reflexivity. }
    rewrite flat_map_singleton_id.
    rewrite (flat_map_ext_in _ (fun i => seq (ref_count t 0 + i * (p - 1)) (p - 1)) (seq 0 (ref_count t 1))).
    2:{ intros i Hi. apply in_seq in Hi. cbn [el_edofs lagrange].
        rewrite (proj2 (Nat.ltb_lt i (ref_count t 1))) by lia. reflexivity. }
    rewrite flat_map_seq_blocks.
    rewrite (flat_map_ext_in _ (fun i => seq (ref_count t 0 + ref_count t 1 * (p - 1) + i * lagrange_interior t p)
                                             (lagrange_interior t p)) (seq 0 (ref_count t 2))).
    2:{ intros i Hi. apply in_seq in Hi. cbn [el_edofs lagrange].
        rewrite (proj2 (Nat.ltb_lt i (ref_count t 2))) by lia. reflexivity. }
    rewrite flat_map_seq_blocks. cbn [el_dim lagrange].
    rewrite app_assoc, !seq_app, !Nat.add_0_l. apply Permutation_refl.
Qed.

Lemma lagrange_wf_family p types : wf_family types (lagrange p).
Proof.
  constructor.
  - intros t _. apply lagrange_wf_element.
  - intros t t' d i i' _ _ Hd Hi Hi'. unfold el_ndofs. cbn [el_edofs lagrange].
    rewrite (proj2 (Nat.ltb_lt _ _) Hi), (proj2 (Nat.ltb_lt _ _) Hi').
    do 2 (destruct d as [|d]; [now rewrite ?seq_length|]). lia.
Qed.

Lemma interior_only_wf_element n t : wf_element t (interior_only n t).
Proof.
  constructor.
  - intros d i Hd Hi. cbn [el_edofs interior_only].
    rewrite (proj2 (Nat.ltb_lt _ _) Hi).
    do 3 (destruct d as [|d]; [eauto|]). lia.
  - intros d i H. cbn [el_edofs interior_only].
    destruct (Nat.ltb_spec i (ref_count t d)); auto.
    do 3 (destruct d as [|d]; [exfalso; apply H; split; lia|]). reflexivity.
  - unfold el_all_dofs. cbn [seq flat_map]. rewrite app_nil_r.
    rewrite (flat_map_nil_all _ (seq 0 (ref_count t 0))).
    2:{ intros i Hi. cbn [el_edofs interior_only]. destruct (i <? ref_count t 0); reflexivity. }
    rewrite (flat_map_nil_all _ (seq 0 (ref_count t 1))).
    2:{ intros i Hi. cbn [el_edofs interior_only]. destruct (i <? ref_count t 1); reflexivity. }
    rewrite (flat_map_ext_in _ (fun i => seq (0 + i * n t) (n t)) (seq 0 (ref_count t 2))).
    2:{ intros i Hi. apply in_seq in Hi. cbn [el_edofs interior_only].
        rewrite (proj2 (Nat.ltb_lt i (ref_count t 2))) by lia. reflexivity. }
    rewrite flat_map_seq_blocks. cbn [el_dim interior_only app]. apply Permutation_refl.
Qed.

Lemma interior_only_wf_family n types : wf_family types (interior_only n).
Proof.
  constructor.
  - intros t _. apply interior_only_wf_element.
  - intros t t' d i i' _ _ Hd Hi Hi'. unfold el_ndofs. cbn [el_edofs interior_only].
    rewrite (proj2 (Nat.ltb_lt _ _) Hi), (proj2 (Nat.ltb_lt _ _) Hi').
    do 2 (destruct d as [|d]; [reflexivity|]). lia.
Qed.

(** ** Element facts used by the DOF map *)

Lemma el_all_dofs_In t el d i l k x :
  d <= 2 -> i < ref_count t d -> el_edofs el d i = Some l -> nth_error l k = Some x ->
  In x (el_all_dofs t el).
Proof.
  intros Hd Hi He Hk. unfold el_all_dofs. apply in_flat_map. exists d. split.
  - apply in_seq. lia.
  - apply in_flat_map. exists i. split; [apply in_seq; lia|].
    rewrite He. eapply nth_error_In; eauto.
Qed.

Lemma el_all_dofs_In_inv t el x :
  In x (el_all_dofs t el) ->
  exists d i l k, d <= 2 /\ i < ref_count t d /\ el_edofs el d i = Some l /\ nth_error l k = Some x.
Proof.
  unfold el_all_dofs. intros H. apply in_flat_map in H. destruct H as (d & Hd & H).
  apply in_flat_map in H. destruct H as (i & Hi & H).
  apply in_seq in Hd, Hi.
  destruct (el_edofs el d i) as [l|] eqn:E; [|destruct H].
  apply In_nth_error in H. destruct H as (k & Hk).
  exists d, i, l, k. repeat split; auto; lia.
Qed.

(** A local DOF of a well-formed element is in range. *)
Lemma we_lt t el d i l k x :
  wf_element t el -> el_edofs el d i = Some l -> nth_error l k = Some x -> x < el_dim el.
Proof.
  intros W He Hk.
  destruct (le_lt_dec d 2) as [Hd|Hd]; [destruct (lt_dec i (ref_count t d)) as [Hi|Hi]|].
  - assert (In x (seq 0 (el_dim el))).
    { eapply Permutation_in; [apply (we_part t el W)|]. eapply el_all_dofs_In; eauto. }
    apply in_seq in H. lia.
  - rewrite (we_none t el W) in He; [discriminate|lia].
  - rewrite (we_none t el W) in He; [discriminate|lia].
Qed.

(** Every local DOF is on some sub-entity. *)
Lemma we_cover t el x :
  wf_element t el -> x < el_dim el ->
  exists d i l k, d <= 2 /\ i < ref_count t d /\ el_edofs el d i = Some l /\ nth_error l k = Some x.
Proof.
  intros W Hx. apply el_all_dofs_In_inv.
  eapply Permutation_in; [apply Permutation_sym, (we_part t el W)|]. apply in_seq. lia.
Qed.

Lemma NoDup_flat_map_inv {A B} (f : A -> list B) l :
  NoDup (flat_map f l) -> NoDup l ->
  (forall x, In x l -> NoDup (f x)) /\
  (forall x y z, In x l -> In y l -> In z (f x) -> In z (f y) -> x = y).
Proof.
  induction l as [|a t IH]; intros Hn Hl; simpl in *.
  - split; [tauto|]. intros x y z [].
  - inversion Hl; subst.
    apply NoDup_app_iff in Hn. destruct Hn as (H3 & H4 & H5).
    destruct (IH H4 H2) as [IH1 IH2].
    split.
    + intros x [<-|H]; auto.
    + intros x y z [<-|Hx] [<-|Hy] Hzx Hzy; auto.
      * exfalso. apply (H5 z Hzx). apply in_flat_map. eauto.
      * exfalso. apply (H5 z Hzy). apply in_flat_map. eauto.
      * eauto.
Qed.

(** Two positions holding the same local DOF are the same position. *)
Lemma we_inj t el d i l k d' i' l' k' x :
  wf_element t el ->
  el_edofs el d i = Some l -> nth_error l k = Some x ->
  el_edofs el d' i' = Some l' -> nth_error l' k' = Some x ->
  d = d' /\ i = i' /\ k = k'.
Proof.
  intros W He Hk He' Hk'.
  assert (Hin : forall d i l, el_edofs el d i = Some l -> d <= 2 /\ i < ref_count t d).
  { intros d0 i0 l0 E. destruct (le_lt_dec d0 2), (lt_dec i0 (ref_count t d0)); auto;
      rewrite (we_none t el W) in E; try discriminate; lia. }
  destruct (Hin _ _ _ He) as [Hd Hi]. destruct (Hin _ _ _ He') as [Hd' Hi'].
  assert (N : NoDup (el_all_dofs t el)).
  { eapply Permutation_NoDup; [apply Permutation_sym, (we_part t el W)|]. apply seq_NoDup. }
  unfold el_all_dofs in N.
  destruct (NoDup_flat_map_inv _ _ N (seq_NoDup _ _)) as [N1 N2].
  assert (d = d').
  { apply (N2 d d' x).
    - apply in_seq; lia.
    - apply in_seq; lia.
    - apply in_flat_map. exists i. split; [apply in_seq; lia|]. rewrite He. eapply nth_error_In; eauto.
    - apply in_flat_map. exists i'. split; [apply in_seq; lia|]. rewrite He'. eapply nth_error_In; eauto. }
  subst d'. split; auto.
  assert (N3 := N1 d ltac:(apply in_seq; lia)). cbv beta in N3.
  destruct (NoDup_flat_map_inv _ _ N3 (seq_NoDup _ _)) as [N4 N5].
  assert (i = i').
  { apply (N5 i i' x).
    - apply in_seq; lia.
    - apply in_seq; lia.
    - rewrite He. eapply nth_error_In; eauto.
    - rewrite He'. eapply nth_error_In; eauto. }
  subst i'. split; auto.
  rewrite He in He'. inversion He'; subst l'.
  assert (N6 := N4 i ltac:(apply in_seq; lia)). cbv beta in N6. rewrite He in N6.
  eapply NoDup_nth_error_inj; eauto.
Qed.
