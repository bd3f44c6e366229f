(** * The statements of C01-C07 and a concrete grid *)
From Verif Require Import Base BaseFacts Topology TopologyFacts Shapes DofMap DofMapFacts SpecDof DofMapResults.

Lemma local_numbers_bijective : forall rank g fam dm,
  wf_grid g -> wf_family (g_types g 2) fam -> assign_dofs rank g fam = Ok dm ->
  (forall n, n < dm_size dm <-> exists d e k, listed dm d e k n) /\
  (forall n d e k d' e' k', listed dm d e k n -> listed dm d' e' k' n -> d = d' /\ e = e' /\ k = k').
Proof.
  intros rank g fam dm W WF H. split.
  - intros n. symmetry. eapply listed_lt_iff; eauto.
  - intros. eapply listed_unique; eauto.
Qed.

Lemma cell_dofs_distinct_in_range : forall rank g fam dm c,
  wf_grid g -> wf_family (g_types g 2) fam -> assign_dofs rank g fam = Ok dm -> c < ent_count g 2 ->
  exists l, has_cell_dofs dm c l /\ length l = el_dim (fam (g_ctype g c)) /\ NoDup l /\
            forall n, In n l -> n < dm_size dm.
Proof.
  intros rank g fam dm c W WF H Hc. exists (nth c (dm_cells dm) []).
  split; [eapply cell_row; eauto|]. split; [eapply cell_row_length; eauto|].
  split; [eapply cell_row_NoDup; eauto|]. intros; eapply cell_row_lt; eauto.
Qed.

Lemma cell_dofs_of_entity : forall rank g fam dm c d i e l row,
  wf_grid g -> wf_family (g_types g 2) fam -> assign_dofs rank g fam = Ok dm ->
  sub_at g c d i e -> el_edofs (fam (g_ctype g c)) d i = Some l -> has_cell_dofs dm c row ->
  exists ns, get_local_dof_numbers dm d e = Ok ns /\ length ns = length l /\
             forall k x, nth_error l k = Some x -> nth_error row x = nth_error ns k.
Proof.
  intros rank g fam dm c d i e l row W WF H Hs El Hr.
  apply (has_cell_dofs_iff rank g fam dm W WF H) in Hr. destruct Hr as [Hc ->].
  exists (edof dm d e). split; [|split].
  - destruct Hs as (_ & Hd & Hs). eapply get_local_Ok; eauto.
    eapply wf_sub_lt; eauto. eapply nth_error_In; eauto.
  - rewrite (edof_length rank g fam dm W WF H c d i e Hs). unfold el_ndofs. now rewrite El.
  - intros k x Hk. destruct (cell_row_entity rank g fam dm W WF H c d i e l k x Hs El Hk) as (n & H1 & H2).
    congruence.
Qed.

Lemma shared_dof_shared_entity : forall rank g fam dm c c' l l' n,
  wf_grid g -> wf_family (g_types g 2) fam -> assign_dofs rank g fam = Ok dm ->
  has_cell_dofs dm c l -> has_cell_dofs dm c' l' -> In n l -> In n l' ->
  exists d e k, contains g c d e /\ contains g c' d e /\ listed dm d e k n.
Proof.
  intros rank g fam dm c c' l l' n W WF H Hr Hr' Hn Hn'.
  apply (has_cell_dofs_iff rank g fam dm W WF H) in Hr. destruct Hr as [Hc ->].
  apply (has_cell_dofs_iff rank g fam dm W WF H) in Hr'. destruct Hr' as [Hc' ->].
  destruct (shared_dof rank g fam dm W WF H c c' n Hc Hc' Hn Hn') as (d & e & H1 & H2 & H3).
  apply In_nth_error in H3. destruct H3 as (k & H3).
  exists d, e, k. repeat split; try apply H1; try apply H2.
  now apply (listed_edof rank g fam dm W WF H).
Qed.

Lemma discontinuous : forall rank g fam dm,
  wf_grid g -> wf_family (g_types g 2) fam -> assign_dofs rank g fam = Ok dm ->
  interior_family (g_types g 2) fam ->
  (forall c c' l l' n, has_cell_dofs dm c l -> has_cell_dofs dm c' l' -> In n l -> In n l' -> c = c') /\
  dm_size dm = sum_list (map (fun c => el_dim (fam (g_ctype g c))) (seq 0 (ent_count g 2))).
Proof.
  intros rank g fam dm W WF H HI. split.
  - intros c c' l l' n Hr Hr' Hn Hn'.
    apply (has_cell_dofs_iff rank g fam dm W WF H) in Hr. destruct Hr as [Hc ->].
    apply (has_cell_dofs_iff rank g fam dm W WF H) in Hr'. destruct Hr' as [Hc' ->].
    eapply interior_disjoint; eauto.
  - eapply interior_size; eauto.
Qed.

Lemma dimension : forall rank g fam dm N,
  wf_grid g -> wf_family (g_types g 2) fam -> assign_dofs rank g fam = Ok dm ->
  dof_count g fam N -> dm_size dm = sum_entities g N.
Proof. intros. eapply size_sum; eauto. Qed.

Lemma sum_const {A} (k : nat) (l : list A) : sum_list (map (fun _ => k) l) = k * length l.
Proof. induction l; simpl; auto with arith. rewrite IHl. lia. Qed.

Lemma dimension_lagrange : forall rank g p dm t,
  wf_grid g -> g_types g 2 = [t] -> 1 <= p -> assign_dofs rank g (lagrange p) = Ok dm ->
  (forall d e, d <= 2 -> e < ent_count g d -> exists c, contains g c d e) ->
  dm_size dm = ent_count g 0 + (p - 1) * ent_count g 1 + lagrange_interior t p * ent_count g 2.
Proof.
  intros rank g p dm t W Ht Hp H Hcov.
  assert (Hu : forall c, c < ent_count g 2 -> g_ctype g c = t).
  { intros c Hc. assert (Hx := wf_ctype g W c Hc). rewrite Ht in Hx. destruct Hx as [<-|[]]. reflexivity. }
  set (N := fun d e => if e <? ent_count g d then match d with 0 => 1 | 1 => p - 1 | 2 => lagrange_interior t p | _ => 0 end else 0).
  rewrite (size_sum rank g (lagrange p) dm W (lagrange_wf_family _ _) H N).
  - unfold sum_entities. cbn [seq map].
    assert (E : forall d, sum_list (map (N d) (seq 0 (ent_count g d))) =
                match d with 0 => 1 | 1 => p - 1 | 2 => lagrange_interior t p | _ => 0 end * ent_count g d).
    { intros d. rewrite <- (seq_length (ent_count g d) 0) at 2. rewrite <- sum_const.
      apply sum_list_map_ext. intros e He. apply in_seq in He. unfold N.
      rewrite (proj2 (Nat.ltb_lt e (ent_count g d))) by lia. reflexivity. }
    rewrite !E. unfold sum_list. cbn [fold_right]. lia.
  - split.
    + intros c d i e (Hc & Hd & Hs).
      assert (He : e < ent_count g d) by (eapply wf_sub_lt; eauto; eapply nth_error_In; eauto).
      assert (Hi : i < ref_count (g_ctype g c) d).
      { rewrite <- (wf_sub_length g W c d Hc Hd). apply nth_error_Some. congruence. }
      unfold N, el_ndofs, lagrange. cbn [el_edofs].
      rewrite (proj2 (Nat.ltb_lt e _) He), (proj2 (Nat.ltb_lt i _) Hi), (Hu c Hc).
      destruct d as [|[|[|d]]]; cbn [length]; rewrite ?seq_length; auto; lia.
    + intros d e Hn. unfold N. destruct (Nat.ltb_spec e (ent_count g d)); auto.
      destruct (le_lt_dec d 2) as [Hd|Hd].
      * destruct (Hcov d e Hd H0) as (c & Hc). exfalso. eapply Hn; eauto.
      * destruct d as [|[|[|d]]]; auto; lia.
Qed.

Lemma dofmap_total : forall rank g fam,
  wf_grid g -> wf_family (g_types g 2) fam ->
  exists dm, assign_dofs rank g fam = Ok dm /\
    forall c, (c < ent_count g 2 /\ exists l, cell_dofs dm c = Ok (Some l)) \/
              (ent_count g 2 <= c /\ cell_dofs dm c = Ok None).
Proof.
  intros rank g fam W WF. destruct (assign_dofs_total rank g fam W WF) as (dm & H).
  exists dm. split; auto. intros c. destruct (lt_dec c (ent_count g 2)) as [Hc|Hc].
  - left. split; auto. exists (nth c (dm_cells dm) []). eapply cell_row; eauto.
  - right. split; [lia|]. eapply cell_dofs_None; eauto.
Qed.

(** ** [screen_triangles(2)] *)
Definition screen2_builder : builder (nat * nat) :=
  Eval vm_compute in match screen_triangles 2 with Ok b => b | _ => new_builder Triangle 1 end.

Definition screen2 : grid := built_grid 0 Triangle screen2_builder.

Lemma screen2_built : screen_triangles 2 = Ok screen2_builder.
Proof. vm_compute. reflexivity. Qed.

Lemma valid_cells_check t npts cells :
  surface_type t ->
  forallb (fun vs => (length vs =? ref_count t 0) && forallb (fun v => v <? npts) vs &&
                     (length (nodup Nat.eq_dec vs) =? length vs)) cells = true ->
  valid_cells t npts cells.
Proof.
  intros St H. split; auto. intros vs Hv. rewrite forallb_forall in H. specialize (H vs Hv).
  apply andb_prop in H. destruct H as [H H3]. apply andb_prop in H. destruct H as [H1 H2].
  apply Nat.eqb_eq in H1, H3. rewrite forallb_forall in H2. split; [auto|split].
  - assert (Hn : NoDup (nodup Nat.eq_dec vs)) by apply NoDup_nodup.
    apply (NoDup_incl_NoDup Hn); [lia|]. intros x Hx. now apply nodup_In in Hx.
  - intros v Hv'. apply Nat.ltb_lt. auto.
Qed.

Lemma screen2_wf : wf_grid screen2.
Proof.
  apply grid_of_cells_wf. apply valid_cells_check; [now left|]. vm_compute. reflexivity.
Qed.

Lemma screen2_facts :
  wf_grid screen2 /\ ent_count screen2 0 = 9 /\ ent_count screen2 1 = 16 /\ ent_count screen2 2 = 8 /\
  (forall p, 1 <= p -> wf_family (g_types screen2 2) (lagrange p)) /\
  wf_family (g_types screen2 2) (interior_only (fun _ => 1)) /\
  interior_family (g_types screen2 2) (interior_only (fun _ => 1)) /\
  (forall d e, d <= 2 -> e < ent_count screen2 d -> exists c, contains screen2 c d e) /\
  (exists dm, assign_dofs 0 screen2 (lagrange 2) = Ok dm /\ dm_size dm = 25 /\
              has_cell_dofs dm 1 [0; 2; 6; 7; 8; 4]) /\
  sub_at screen2 0 1 1 1 /\ sub_at screen2 1 1 2 1 /\ edge_start screen2 0 1 = edge_start screen2 1 2.
Proof.
  split; [exact screen2_wf|]. do 3 (split; [vm_compute; reflexivity|]).
  split; [intros p Hp; apply lagrange_wf_family|].
  split; [apply interior_only_wf_family|].
  split.
  { intros t d i Ht Hd. unfold el_ndofs, interior_only. cbn [el_edofs].
    destruct (i <? ref_count t d); auto. destruct d as [|[|d]]; auto. lia. }
  split.
  { assert (Hall : forall d, d <= 2 ->
      forallb (fun e => existsb (fun c => memb e (g_sub screen2 c d)) (seq 0 (ent_count screen2 2)))
              (seq 0 (ent_count screen2 d)) = true).
    { intros d Hd. destruct d as [|[|[|d]]]; [vm_compute; reflexivity ..|]. lia. }
    intros d e Hd He. specialize (Hall d Hd). rewrite forallb_forall in Hall.
    specialize (Hall e). rewrite in_seq in Hall. specialize (Hall (conj (Nat.le_0_l e) He)).
    apply existsb_exists in Hall. destruct Hall as (c & Hc & Hm). apply in_seq in Hc.
    exists c. split; [lia|]. split; auto. now apply memb_In. }
  split.
  { destruct (assign_dofs 0 screen2 (lagrange 2)) as [dm| | |] eqn:E; vm_compute in E; inversion E; subst.
    eexists. split; [reflexivity|]. split; vm_compute; reflexivity. }
  split; [split; [|split]; vm_compute; auto; lia|].
  split; [split; [|split]; vm_compute; auto; lia|]. vm_compute; reflexivity.
Qed.

Lemma edge_points_refuted : exists b dm c c' i i' e k n row row' l l' x x' v,
  screen_triangles 2 = Ok b /\
  wf_grid (built_grid 0 Triangle b) /\ wf_family [Triangle] (lagrange 3) /\
  assign_dofs 0 (built_grid 0 Triangle b) (lagrange 3) = Ok dm /\
  sub_at (built_grid 0 Triangle b) c 1 i e /\ sub_at (built_grid 0 Triangle b) c' 1 i' e /\
  has_cell_dofs dm c row /\ has_cell_dofs dm c' row' /\
  el_edofs (lagrange 3 Triangle) 1 i = Some l /\ el_edofs (lagrange 3 Triangle) 1 i' = Some l' /\
  nth_error l k = Some x /\ nth_error l' k = Some x' /\
  nth_error row x = Some n /\ nth_error row' x' = Some n /\
  edge_point_weight (built_grid 0 Triangle b) c i (length l) k v <>
  edge_point_weight (built_grid 0 Triangle b) c' i' (length l') k v.
Proof.
  destruct (assign_dofs 0 screen2 (lagrange 3)) as [dm| | |] eqn:E2; try (vm_compute in E2; discriminate).
  exists screen2_builder, dm, 1, 4, 0, 2.
  change (built_grid 0 Triangle screen2_builder) with screen2.
  assert (E3 := E2). vm_compute in E2. inversion E2; subst dm. clear E2.
  do 9 eexists. exists 3.
  split; [exact screen2_built|]. split; [exact screen2_wf|].
  split; [apply lagrange_wf_family|].
  split; [exact E3|]. clear E3.
  split; [split; [vm_compute; lia|split; [lia|vm_compute; reflexivity]]|].
  split; [split; [vm_compute; lia|split; [lia|vm_compute; reflexivity]]|].
  split; [vm_compute; reflexivity|]. split; [vm_compute; reflexivity|].
  split; [vm_compute; reflexivity|]. split; [vm_compute; reflexivity|].
  split; [instantiate (2 := 0); vm_compute; reflexivity|]. split; [vm_compute; reflexivity|].
  split; [vm_compute; reflexivity|]. split; [vm_compute; reflexivity|].
  vm_compute. discriminate.
Qed.
