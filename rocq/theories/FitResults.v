(** * The colouring is the first-fit colouring *)
From Verif Require Import Base BaseFacts Topology TopologyFacts DofMap DofMapFacts SpecDof DofMapResults
  Colouring ColouringFacts SpecColour ColouringResults SpecFit.

Lemma list_of_assoc {V : Type} (F : cell_type -> V) m : NoDup (map fst m) ->
  (forall t v, assoc ct_eqb t m = Some v -> v = F t) -> m = map (fun t => (t, F t)) (map fst m).
Proof.
  induction m as [|(t, v) m IH]; intros N H; [reflexivity|]. cbn [map fst] in *. inversion N as [|? ? N1 N2]; subst.
  assert (v = F t) as -> by (apply H; cbn [assoc]; now rewrite ct_eqb_refl). f_equal. apply IH; auto.
  intros u w E. apply H. cbn [assoc]. destruct (ct_eqb u t) eqn:Q; [|exact E]. apply ct_eqb_eq in Q. subst u.
  exfalso. apply N1. apply assoc_Some_In in E; [|apply ct_eqb_eq]. apply in_map_iff. now exists (t, w).
Qed.

Lemma list_by_index {A : Type} (f : nat -> A) K l : length l = K -> (forall k, k < K -> nth_error l k = Some (f k)) -> l = map f (seq 0 K).
Proof.
  intros L H. apply nth_error_ext. intros k. destruct (lt_dec k K) as [Hk|Hk].
  - rewrite H by auto. symmetry. apply map_nth_error. now rewrite nth_error_seq.
  - rewrite (proj2 (nth_error_None _ _)) by lia. symmetry. apply nth_error_None. rewrite map_length, seq_length. lia.
Qed.

Lemma split_lt g earlier c later : wf_grid g -> g_iter g 2 = earlier ++ c :: later ->
  c < ent_count g 2 /\ ~ In c earlier /\ forall c', In c' earlier -> c' < ent_count g 2.
Proof.
  intros W E. assert (N := wf_iter_nodup g W 2 (le_n 2)). rewrite E in N.
  split; [apply (wf_iter_In g W 2); auto; rewrite E; apply in_elt|]. split.
  - apply NoDup_remove_2 in N. intros H. apply N. apply in_or_app. now left.
  - intros c' H. apply (wf_iter_In g W 2); auto. rewrite E. apply in_or_app. now left.
Qed.

Lemma first_fit_holds : forall rank g fam dm, wf_grid g -> wf_family (g_types g 2) fam -> head_dim_pos g fam -> assign_dofs rank g fam = Ok dm ->
  exists colour K, first_fit g dm colour /\ colours_used g colour K /\ cell_colouring g fam = Ok (classes_of g colour K).
Proof.
  intros rank g fam dm W WF Hd HA. destruct (colouring_main g fam W WF Hd) as (edim & ec & col & f & K & LD & E & I).
  exists f, K. split; [|split].
  - intros earlier c later Es. destruct (split_lt g earlier c later W Es) as (Hc & Nc & He). split.
    + intros c' Hc' Cf Eq. assert (Ne : c <> c') by (intros ->; auto).
      apply (ci_proper _ _ _ _ _ _ I c c'); auto; try (apply (wf_iter_In g W 2); auto).
      now apply (conflict_touch rank g fam dm edim W WF HA LD).
    + intros k Hk. destruct (ci_first _ _ _ _ _ _ I earlier c later k Es Hk) as (c' & A & B & C). exists c'. split; auto. split; auto.
      apply (touch_conflict rank g fam dm edim W WF HA LD); auto. intros ->. auto.
  - split.
    + intros c Hc. apply (ci_lt _ _ _ _ _ _ I). now apply (wf_iter_In g W 2).
    + intros k Hk. destruct (ci_used _ _ _ _ _ _ I k Hk) as (c & A & B). exists c. split; auto. now apply (wf_iter_In g W 2) in A.
  - rewrite E. f_equal. unfold classes_of. assert (Ks := ci_keys _ _ _ _ _ _ I). cbn [fst] in Ks. rewrite <- Ks.
    apply list_of_assoc; [rewrite Ks; apply (wf_types2_nodup g W)|].
    intros t classes A. apply list_by_index; [exact (ci_len _ _ _ _ _ _ I t classes A)|].
    intros k Hk. exact (ci_classes _ _ _ _ _ _ I t classes k A Hk).
Qed.

(** Agreement on a set of cells that has the earlier conflicting cells of its cells. *)
Lemma first_fit_agree g dm colour colour' : first_fit g dm colour -> first_fit g dm colour' ->
  forall earlier c later, g_iter g 2 = earlier ++ c :: later -> colour c = colour' c.
Proof.
  intros F F'.
  assert (M : forall m earlier c later, length earlier < m -> g_iter g 2 = earlier ++ c :: later -> colour c = colour' c).
  { induction m as [|m IH]; intros earlier c later L E; [lia|].
    assert (Q : forall c', In c' earlier -> colour c' = colour' c').
    { intros c' H. apply in_split in H. destruct H as (l1 & l2 & ->). apply (IH l1 c' (l2 ++ c :: later)).
      - rewrite app_length in L. cbn in L. lia.
      - rewrite E, <- app_assoc. reflexivity. }
    destruct (F earlier c later E) as (A & B), (F' earlier c later E) as (A' & B').
    destruct (lt_eq_lt_dec (colour c) (colour' c)) as [[C|C]|C]; auto; exfalso.
    - destruct (B' _ C) as (c' & H1 & H2 & H3). apply (A c' H1 H2). now rewrite Q.
    - destruct (B _ C) as (c' & H1 & H2 & H3). apply (A' c' H1 H2). now rewrite <- Q. }
  intros earlier c later E. apply (M (S (length earlier)) earlier c later); auto.
Qed.

Lemma first_fit_unique : forall g dm colour colour', wf_grid g -> first_fit g dm colour -> first_fit g dm colour' ->
  forall c, c < ent_count g 2 -> colour c = colour' c.
Proof.
  intros g dm colour colour' W F F' c Hc. assert (H : In c (g_iter g 2)) by now apply (wf_iter_In g W 2).
  apply in_split in H. destruct H as (l1 & l2 & E). eapply first_fit_agree; eauto.
Qed.

Lemma colours_used_unique g colour colour' K K' : (forall c, c < ent_count g 2 -> colour c = colour' c) ->
  colours_used g colour K -> colours_used g colour' K' -> K = K'.
Proof.
  intros E (A & B) (A' & B'). destruct (lt_eq_lt_dec K K') as [[C|C]|C]; auto; exfalso.
  - destruct (B' K C) as (c & Hc & H). specialize (A c Hc). rewrite E in A by auto. lia.
  - destruct (B K' C) as (c & Hc & H). specialize (A' c Hc). rewrite <- E in A' by auto. lia.
Qed.

Lemma classes_of_ext g colour colour' K : wf_grid g -> (forall c, c < ent_count g 2 -> colour c = colour' c) -> classes_of g colour K = classes_of g colour' K.
Proof.
  intros W E. unfold classes_of. apply map_ext. intros t. f_equal. apply map_ext. intros k. apply filter_ext_in. intros c Hc.
  rewrite E; auto. now apply (wf_iter_In g W 2).
Qed.

Lemma first_fit_determines : forall rank g fam dm colour K, wf_grid g -> wf_family (g_types g 2) fam -> head_dim_pos g fam -> assign_dofs rank g fam = Ok dm ->
  first_fit g dm colour -> colours_used g colour K -> cell_colouring g fam = Ok (classes_of g colour K).
Proof.
  intros rank g fam dm colour K W WF Hd HA F U. destruct (first_fit_holds rank g fam dm W WF Hd HA) as (colour' & K' & F' & U' & E).
  rewrite E. f_equal. assert (Q : forall c, c < ent_count g 2 -> colour' c = colour c) by (apply (first_fit_unique g dm); auto).
  rewrite (colours_used_unique g colour' colour K' K Q U' U). now apply classes_of_ext.
Qed.

Lemma first_fit_same_conflicts g dm dm' colour : wf_grid g ->
  (forall c c', c < ent_count g 2 -> c' < ent_count g 2 -> c <> c' -> (conflict dm c c' <-> conflict dm' c c')) ->
  first_fit g dm colour -> first_fit g dm' colour.
Proof.
  intros W H F earlier c later E. destruct (split_lt g earlier c later W E) as (Hc & Nc & He). destruct (F earlier c later E) as (A & B).
  assert (Ne : forall c', In c' earlier -> c <> c') by (intros c' ? ->; auto). split.
  - intros c' H1 H2. apply A; auto. apply H; auto.
  - intros k Hk. destruct (B k Hk) as (c' & H1 & H2 & H3). exists c'. split; auto. split; auto. apply H; auto.
Qed.

Lemma same_conflicts_same_colours : forall rank rank' g fam fam' dm dm', wf_grid g ->
  wf_family (g_types g 2) fam -> head_dim_pos g fam -> assign_dofs rank g fam = Ok dm ->
  wf_family (g_types g 2) fam' -> head_dim_pos g fam' -> assign_dofs rank' g fam' = Ok dm' ->
  (forall c c', c < ent_count g 2 -> c' < ent_count g 2 -> c <> c' -> (conflict dm c c' <-> conflict dm' c c')) ->
  cell_colouring g fam = cell_colouring g fam'.
Proof.
  intros rank rank' g fam fam' dm dm' W WF Hd HA WF' Hd' HA' H.
  destruct (first_fit_holds rank g fam dm W WF Hd HA) as (colour & K & F & U & E). rewrite E. symmetry.
  apply (first_fit_determines rank' g fam' dm'); auto. now apply (first_fit_same_conflicts g dm).
Qed.

(** ** The dimension *)

Lemma find_edim_lowest g fam t0 d : wf_grid g -> In t0 (g_types g 2) -> lowest_dofs (g_types g 2) fam d -> find_edim (fam t0) 5 0 = Ok d.
Proof.
  intros W Ht (Hd & H). destruct (H t0 Ht) as (Z & P). assert (St := wf_types2_surface g W t0 Ht).
  assert (Z' : forall e, e < d -> el_edofs (fam t0) e 0 = Some []) by (intros e He; apply Z; auto; apply ref_count_pos; auto; lia).
  destruct (P 0) as (x & l & E); [apply ref_count_pos; auto|].
  destruct d as [|[|[|d]]]; [| | |lia]; cbn [find_edim]; rewrite ?Z' by lia; cbn [unwrap bind is_empty]; rewrite ?Z' by lia; cbn [unwrap bind is_empty];
    rewrite E; reflexivity.
Qed.

Lemma same_lowest_same_colours : forall g fam fam' d, wf_grid g -> lowest_dofs (g_types g 2) fam d -> lowest_dofs (g_types g 2) fam' d ->
  cell_colouring g fam = cell_colouring g fam'.
Proof.
  intros g fam fam' d W L L'. destruct (wf_head g W) as (t0 & r & Et). assert (Hin : In t0 (g_types g 2)) by (rewrite Et; now left).
  assert (Q : forall f, lowest_dofs (g_types g 2) f d -> cell_colouring g f =
      (n <- colour_table_size g d ;; st <- foldM (colour_cell g d) (g_iter g 2) (map (fun t => (t, [])) (g_types g 2), repeat [] n) ;; Ok (fst st))).
  { intros f Lf. unfold cell_colouring. rewrite Et at 1. cbn [vget nth_error unwrap bind].
    rewrite assoc_map by (auto using ct_eqb_eq). cbn [unwrap bind]. now rewrite (find_edim_lowest g f t0 d W Hin Lf). }
  now rewrite (Q fam L), (Q fam' L').
Qed.

Lemma lagrange_lowest types p : (forall t, In t types -> surface_type t) -> 1 <= p -> lowest_dofs types (lagrange p) 0.
Proof.
  intros St Hp. split; [lia|]. intros t Ht. split; [intros; lia|]. intros i Hi. destruct p as [|p]; [lia|].
  destruct (St t Ht) as [-> | ->]; cbn in Hi |- *; do 4 (destruct i as [|i]; [first [lia | do 2 eexists; reflexivity]|]); lia.
Qed.

Lemma interior_lowest types n : (forall t, In t types -> surface_type t) -> (forall t, In t types -> 0 < n t) -> lowest_dofs types (interior_only n) 2.
Proof.
  intros St Hn. split; [lia|]. intros t Ht. assert (P := Hn t Ht). split.
  - intros e i He Hi. destruct (St t Ht) as [-> | ->]; destruct e as [|[|e]]; try lia; cbn in Hi |- *; do 4 (destruct i as [|i]; [first [lia | reflexivity]|]); lia.
  - intros i Hi. destruct (St t Ht) as [-> | ->]; cbn in Hi |- *; (destruct i as [|i]; [|lia]); destruct (n _) as [|m]; try lia; cbn [seq]; do 2 eexists; reflexivity.
Qed.
