(** * DOF numbers of discontinuous spaces and of continuous piecewise linear spaces *)
From Verif Require Import Base BaseFacts Topology TopologyFacts DofMap DofMapFacts DofMapResults DofExamples SpecDof SpecFirst FirstResults
  Shapes SpecShapes ScreenFacts SphereFacts SphereResults DimensionResults ScreenEdges CountsResults.

Section Numbers.
Variables (rank : nat) (g : grid) (fam : family) (dm : dofmap).
Hypothesis W : wf_grid g.
Hypothesis WF : wf_family (g_types g 2) fam.
Hypothesis HA : assign_dofs rank g fam = Ok dm.

Lemma before_firstn {A} (l : list A) a b j : nth_error l j = Some b -> NoDup (firstn (S j) l) ->
  (appears_before l a b <-> In a (firstn j l)).
Proof.
  intros Hb N. destruct (nth_error_split l j Hb) as (l1 & l2 & -> & <-).
  assert (Nb : ~ In b l1).
  { replace (firstn (S (length l1)) (l1 ++ b :: l2)) with (l1 ++ [b]) in N.
    - apply NoDup_remove_2 in N. now rewrite app_nil_r in N.
    - rewrite firstn_app, firstn_all2 by lia. f_equal. replace (S (length l1) - length l1) with 1 by lia. reflexivity. }
  rewrite firstn_app, Nat.sub_diag, firstn_all. simpl. rewrite app_nil_r.
  change (b :: l2) with ([b] ++ l2). rewrite app_assoc. split; intros H.
  - assert (Hne := before_neq _ _ _ H).
    apply before_prefix in H; [|apply in_elt]. apply before_In in H. apply in_app_or in H.
    destruct H as [H|[H|[]]]; auto. congruence.
  - rewrite <- app_assoc. now apply before_new.
Qed.

(** As long as nothing has been met twice, numbers are positions. *)
Theorem first_position j d e k :
  nth_error (cells_walk g fam (g_iter g 2)) j = Some (d, e, k) ->
  NoDup (firstn (S j) (cells_walk g fam (g_iter g 2))) -> listed dm d e k j.
Proof.
  intros Hj Nw. set (w := cells_walk g fam (g_iter g 2)) in *.
  assert (Hw : In (d, e, k) w) by (eapply nth_error_In; eauto).
  apply (listed_met rank g fam W WF dm HA) in Hw. destruct Hw as (n & Hn).
  destruct (the_inv rank g fam dm W WF HA) as (tags & I).
  assert (Tn : forall n x, nth_error tags n = Some x <-> listed dm (fst (fst x)) (snd (fst x)) (snd x) n).
  { intros m [[d1 e1] k1]. cbn [fst snd]. rewrite (listed_edof rank g fam dm W WF HA). apply (inv_bij _ _ _ _ _ _ _ I). }
  assert (Nt : NoDup tags).
  { apply NoDup_nth_error. intros a b Ha E. destruct (nth_error tags a) as [x|] eqn:Ex; [|apply nth_error_None in Ex; lia].
    symmetry in E. apply Tn in Ex, E.
    apply (listed_edof rank g fam dm W WF HA) in Ex, E. congruence. }
  assert (Hlen : n < length tags).
  { rewrite (inv_size _ _ _ _ _ _ _ I). apply (listed_lt_iff rank g fam dm W WF HA). eauto. }
  assert (L : length (firstn n tags) = length (firstn j w)).
  { apply same_set_length.
    - rewrite <- (firstn_skipn n tags) in Nt. apply NoDup_app_iff in Nt. tauto.
    - assert (E : firstn j w = firstn j (firstn (S j) w)) by (rewrite firstn_firstn; f_equal; lia). rewrite E.
      rewrite <- (firstn_skipn j (firstn (S j) w)) in Nw. apply NoDup_app_iff in Nw. tauto.
    - intros x. rewrite <- (before_firstn w x (d, e, k) j Hj Nw). destruct x as [[d1 e1] k1]. split.
      + intros H. apply In_nth_error in H. destruct H as (m & Hm).
        assert (Hlt : m < n).
        { assert (m < length (firstn n tags)) by (apply nth_error_Some; congruence). rewrite firstn_length in H. lia. }
        assert (Hm' : nth_error tags m = Some (d1, e1, k1)).
        { rewrite <- (firstn_skipn n tags). rewrite nth_error_app1; auto. apply nth_error_Some. congruence. }
        apply Tn in Hm'. cbn [fst snd] in Hm'. now apply (first_order rank g fam W WF dm HA _ _ _ _ _ _ _ _ Hm' Hn).
      + intros H. assert (Hx := before_In _ _ _ H). apply (listed_met rank g fam W WF dm HA) in Hx. destruct Hx as (m & Hm).
        apply (first_order rank g fam W WF dm HA _ _ _ _ _ _ _ _ Hm Hn) in H.
        assert (Hm' : nth_error tags m = Some (d1, e1, k1)) by (now apply Tn).
        rewrite <- (firstn_skipn n tags) in Hm'. rewrite nth_error_app1 in Hm' by (rewrite firstn_length; lia).
        eapply nth_error_In; eauto. }
  rewrite !firstn_length in L.
  assert (j < length w) by (apply nth_error_Some; congruence).
  replace j with n by lia. exact Hn.
Qed.

(** ** Interior DOFs *)

Hypothesis IF : interior_family (g_types g 2) fam.

Lemma interior_walk c : c < ent_count g 2 ->
  cell_walk g fam c = map (fun k => (2, c, k)) (seq 0 (el_dim (fam (g_ctype g c)))).
Proof.
  intros Hc. unfold cell_walk. cbn [seq flat_map].
  assert (Z : forall d, d < 2 -> flat_map (fun ie => map (fun k => (d, snd ie, k)) (seq 0 (el_ndofs (fam (g_ctype g c)) d (fst ie))))
             (enumerate (g_sub g c d)) = []).
  { intros d Hd. induction (enumerate (g_sub g c d)) as [|[i e] l IH]; auto. cbn [flat_map fst snd].
    rewrite IF, IH by (auto; apply (wf_ctype g W c Hc)). reflexivity. }
  rewrite !Z by lia. rewrite (wf_sub_cell g W c Hc). cbn [enumerate length seq combine flat_map fst snd app].
  rewrite (interior_dim g fam W WF); auto; [|apply (wf_ctype g W c Hc)]. rewrite ?app_nil_r. reflexivity.
Qed.

Lemma flat_map_at {A B : Type} (f : A -> list B) l : forall p c k, nth_error l p = Some c -> k < length (f c) ->
  nth_error (flat_map f l) (sum_list (map (fun x => length (f x)) (firstn p l)) + k) = nth_error (f c) k.
Proof.
  induction l as [|x l IH]; intros p c k Hp Hk; [destruct p; discriminate|].
  destruct p as [|p]; simpl in Hp.
  - inversion Hp; subst. simpl. now rewrite nth_error_app1.
  - cbn [firstn map flat_map]. change (sum_list (length (f x) :: map (fun x => length (f x)) (firstn p l)))
      with (length (f x) + sum_list (map (fun x => length (f x)) (firstn p l))).
    rewrite nth_error_app2 by lia. rewrite <- (IH p c k Hp Hk). f_equal. lia.
Qed.

Lemma interior_NoDup : NoDup (cells_walk g fam (g_iter g 2)).
Proof.
  unfold cells_walk. assert (N := wf_iter_nodup g W 2 (le_n 2)).
  assert (Hc : forall c, In c (g_iter g 2) -> c < ent_count g 2) by (intros c H; now apply (wf_iter_In g W 2 c)).
  induction (g_iter g 2) as [|c l IH]; [constructor|]. inversion N as [|? ? Hn N']; subst.
  cbn [flat_map]. apply NoDup_app_iff. split; [|split].
  - rewrite interior_walk by (apply Hc; now left). apply FinFun.Injective_map_NoDup; [|apply seq_NoDup].
    intros a b H. now inversion H.
  - apply IH; auto. intros c' H. apply Hc. now right.
  - intros x Hx Hy. rewrite interior_walk in Hx by (apply Hc; now left). apply in_map_iff in Hx. destruct Hx as (k & <- & _).
    apply in_flat_map in Hy. destruct Hy as (c' & Hc' & Hy). rewrite interior_walk in Hy by (apply Hc; now right).
    apply in_map_iff in Hy. destruct Hy as (k' & E & _). inversion E; subst. contradiction.
Qed.

Theorem interior_numbers p c l k x row :
  nth_error (g_iter g 2) p = Some c -> el_edofs (fam (g_ctype g c)) 2 0 = Some l -> nth_error l k = Some x ->
  has_cell_dofs dm c row -> nth_error row x = Some (dofs_before g fam p + k).
Proof.
  intros Hp El Ek Hr.
  assert (Hc : c < ent_count g 2) by (apply (wf_iter_In g W 2 c); auto; eapply nth_error_In; eauto).
  assert (Ct := wf_ctype g W c Hc).
  assert (Hk : k < el_dim (fam (g_ctype g c))).
  { rewrite <- (interior_dim g fam W WF _ Ct IF). unfold el_ndofs. rewrite El. apply nth_error_Some. congruence. }
  assert (Lc : forall c, In c (g_iter g 2) -> length (cell_walk g fam c) = el_dim (fam (g_ctype g c))).
  { intros c' H. rewrite interior_walk by (now apply (wf_iter_In g W 2 c')). now rewrite map_length, seq_length. }
  assert (P : nth_error (cells_walk g fam (g_iter g 2)) (dofs_before g fam p + k) = Some (2, c, k)).
  { unfold dofs_before. rewrite (map_ext_in _ (fun x => length (cell_walk g fam x))).
    - unfold cells_walk. rewrite (flat_map_at _ _ p c k Hp).
      + rewrite interior_walk by auto. rewrite nth_error_map. rewrite (nth_error_nth' _ 0) by (rewrite seq_length; auto).
        rewrite seq_nth by auto. reflexivity.
      + rewrite Lc; auto. eapply nth_error_In; eauto.
    - intros c' H. symmetry. apply Lc. rewrite <- (firstn_skipn p (g_iter g 2)). apply in_or_app. now left. }
  assert (Li := first_position _ 2 c k P).
  assert (N := interior_NoDup). set (w := cells_walk g fam (g_iter g 2)) in *. set (j := dofs_before g fam p + k) in *.
  assert (N' : NoDup (firstn (S j) w)) by (rewrite <- (firstn_skipn (S j) w) in N; apply NoDup_app_iff in N; tauto).
  specialize (Li N').
  apply (has_cell_dofs_iff rank g fam dm W WF HA) in Hr. destruct Hr as (_ & ->).
  assert (Hs : sub_at g c 2 0 c) by (repeat split; auto; now rewrite (wf_sub_cell g W c Hc)).
  destruct (cell_row_entity rank g fam dm W WF HA c 2 0 c l k x Hs El Ek) as (n' & H1 & H2).
  apply (listed_edof rank g fam dm W WF HA) in Li. rewrite Li in H2. inversion H2; subst n'. exact H1.
Qed.

Theorem constant_numbers p c : (forall t, In t (g_types g 2) -> el_dim (fam t) = 1) ->
  nth_error (g_iter g 2) p = Some c -> has_cell_dofs dm c [p].
Proof.
  intros D Hp.
  assert (Hc : c < ent_count g 2) by (apply (wf_iter_In g W 2 c); auto; eapply nth_error_In; eauto).
  assert (Ct := wf_ctype g W c Hc).
  assert (Hr := cell_row rank g fam dm W WF HA c Hc). assert (Hl := cell_row_length rank g fam dm W WF HA c Hc).
  rewrite D in Hl by auto. set (row := nth c (dm_cells dm) []) in *.
  assert (Hd := interior_dim g fam W WF _ Ct IF). rewrite D in Hd by auto. unfold el_ndofs in Hd.
  destruct (el_edofs (fam (g_ctype g c)) 2 0) as [[|x [|]]|] eqn:El; try discriminate.
  assert (Hx : x = 0).
  { assert (x < el_dim (fam (g_ctype g c))) by (eapply (we_lt _ _ 2 0 [x] 0); eauto using wff_el).
    rewrite D in H by auto. lia. }
  subst x. assert (H := interior_numbers p c [0] 0 0 row Hp El eq_refl Hr).
  replace (dofs_before g fam p + 0) with p in H.
  - destruct row as [|y [|]]; try discriminate. inversion H; subst. exact Hr.
  - unfold dofs_before. rewrite Nat.add_0_r.
    assert (Hlt : p < length (g_iter g 2)) by (apply nth_error_Some; congruence).
    rewrite (map_ext_in _ (fun _ => 1)).
    + assert (G : forall m : list nat, sum_list (map (fun _ => 1) m) = length m) by (induction m; simpl; auto).
      rewrite G, firstn_length. lia.
    + intros c' H'. apply D. apply (wf_ctype g W). apply (wf_iter_In g W 2 c'); auto.
      rewrite <- (firstn_skipn p (g_iter g 2)). apply in_or_app. now left.
Qed.
End Numbers.

(** ** One DOF per vertex *)

Lemma p1_ndofs t d i : t = Triangle \/ t = Quadrilateral -> d <= 2 ->
  el_ndofs (lagrange 1 t) d i = if (d =? 0) && (i <? ref_count t 0) then 1 else 0.
Proof.
  intros Ht Hd. unfold el_ndofs, lagrange. cbn [el_edofs].
  destruct d as [|[|[|d]]]; try lia; cbn [Nat.eqb andb].
  - now destruct (i <? ref_count t 0).
  - destruct (i <? ref_count t 1); reflexivity.
  - destruct (i <? ref_count t 2); auto. rewrite seq_length. destruct Ht as [-> | ->]; reflexivity.
Qed.

Lemma before_map {A B : Type} (f : A -> B) l a b : (forall x y, f x = f y -> x = y) ->
  (appears_before (map f l) (f a) (f b) <-> appears_before l a b).
Proof.
  intros Inj. split.
  - intros (l1 & l2 & E & N). revert l1 E N. induction l as [|x l IH]; intros l1 E N; [destruct l1; discriminate|].
    destruct l1 as [|y l1]; simpl in E; inversion E; subst.
    + apply Inj in H0. subst x. exists [], l. split; auto. intros [H|[]]. apply N. left. now rewrite H.
    + destruct (IH l1) as (m1 & m2 & -> & M); auto.
      * intros H. apply N. now right.
      * exists (x :: m1), m2. split; auto. intros [<-|H]; auto. apply N. now left.
  - intros (l1 & l2 & -> & N). exists (map f l1), (map f l2). rewrite map_app. split; auto.
    intros H. apply N. apply in_app_or in H. apply in_or_app. destruct H as [H|[H|[]]].
    + apply in_map_iff in H. destruct H as (x & E & H). apply Inj in E. subst. auto.
    + apply Inj in H. right. now left.
Qed.

Section Vertices.
Variables (rank : nat) (g : grid) (dm : dofmap) (t : cell_type).
Hypothesis W : wf_grid g.
Hypothesis T : g_types g 2 = [t].
Hypothesis HA : assign_dofs rank g (lagrange 1) = Ok dm.
Let WF : wf_family (g_types g 2) (lagrange 1) := lagrange_wf_family 1 (g_types g 2).

Lemma p1_surface : t = Triangle \/ t = Quadrilateral.
Proof. apply (wf_types2_surface g W). rewrite T. now left. Qed.

Lemma p1_walk : cells_walk g (lagrange 1) (g_iter g 2) = map (fun v => (0, v, 0)) (vertices_met g).
Proof.
  unfold cells_walk, vertices_met.
  assert (Hc : forall c, In c (g_iter g 2) -> c < ent_count g 2) by (intros c H; now apply (wf_iter_In g W 2 c)).
  induction (g_iter g 2) as [|c l IH]; auto. cbn [flat_map]. rewrite map_app, <- IH by (intros c' H; apply Hc; now right).
  f_equal. clear IH. specialize (Hc c (or_introl eq_refl)).
  assert (Ct : g_ctype g c = t). { assert (H := wf_ctype g W c Hc). rewrite T in H. destruct H as [H|[]]; auto. }
  unfold cell_walk. rewrite Ct. cbn [seq flat_map].
  assert (Z : forall d, 0 < d <= 2 -> flat_map (fun ie => map (fun k => (d, snd ie, k)) (seq 0 (el_ndofs (lagrange 1 t) d (fst ie))))
             (enumerate (g_sub g c d)) = []).
  { intros d Hd. induction (enumerate (g_sub g c d)) as [|[i e] m IH]; auto. cbn [flat_map fst snd].
    rewrite p1_ndofs by (try apply p1_surface; lia). rewrite IH. destruct d as [|d]; [lia|]. reflexivity. }
  rewrite (Z 1), (Z 2) by lia. rewrite ?app_nil_r.
  rewrite <- (map_snd_enumerate (g_sub g c 0)) at 2. rewrite map_map.
  assert (B : forall i e, In (i, e) (enumerate (g_sub g c 0)) -> i < ref_count t 0).
  { intros i e H. apply In_enumerate in H. rewrite <- Ct, <- (wf_sub_length g W c 0 Hc) by lia. apply nth_error_Some. congruence. }
  induction (enumerate (g_sub g c 0)) as [|[i e] m IH]; auto. cbn [flat_map map fst snd].
  rewrite p1_ndofs by (try apply p1_surface; lia). rewrite (proj2 (Nat.ltb_lt _ _) (B i e (or_introl eq_refl))).
  cbn [Nat.eqb andb seq map app]. f_equal. apply IH. intros i' e' H. apply (B i' e'). now right.
Qed.

Lemma slot_inj (x y : nat) : (0, x, 0) = (0, y, 0) -> x = y. Proof. intros H. now inversion H. Qed.

Theorem vertex_order v v' n n' : listed dm 0 v 0 n -> listed dm 0 v' 0 n' ->
  (n < n' <-> appears_before (vertices_met g) v v').
Proof.
  intros H H'. rewrite (first_order rank g _ W WF dm HA _ _ _ _ _ _ _ _ H H'), p1_walk.
  exact (before_map (fun v => (0, v, 0)) _ v v' slot_inj).
Qed.

Theorem vertex_position j v : nth_error (vertices_met g) j = Some v -> NoDup (firstn (S j) (vertices_met g)) -> listed dm 0 v 0 j.
Proof.
  intros H N. apply (first_position rank g (lagrange 1) dm W WF HA); rewrite p1_walk.
  - now rewrite nth_error_map, H.
  - rewrite firstn_map. apply FinFun.Injective_map_NoDup; auto. exact slot_inj.
Qed.

Lemma before_asym {A} (l : list A) a b : appears_before l a b -> ~ appears_before l b a.
Proof.
  intros (l1 & l2 & -> & N) H. change (a :: l2) with ([a] ++ l2) in H. rewrite app_assoc in H.
  apply before_prefix in H; [|apply in_elt]. apply before_In in H. auto.
Qed.

Theorem vertex_numbers : all_used g ->
  (numbered_as_vertices dm <-> forall v v', v < v' -> v' < ent_count g 0 -> appears_before (vertices_met g) v v').
Proof.
  intros U.
  assert (Ex : forall v, v < ent_count g 0 -> In v (vertices_met g)).
  { intros v Hv. destruct (U 0 v ltac:(lia) Hv) as (c & Hc & _ & Hi). apply in_flat_map. exists c. split; auto. now apply (wf_iter_In g W 2 c). }
  assert (Li : forall v, v < ent_count g 0 -> exists n, listed dm 0 v 0 n).
  { intros v Hv. apply (listed_met rank g _ W WF dm HA). rewrite p1_walk. apply in_map_iff. exists v. auto. }
  split.
  - intros N v v' Hlt Hv'. destruct (Li v) as (n & Hn); [lia|]. destruct (Li v' Hv') as (n' & Hn').
    apply (vertex_order _ _ _ _ Hn Hn'). rewrite (N _ _ Hn), (N _ _ Hn'). exact Hlt.
  - intros O v n Hn. symmetry.
    assert (Z : dm_size dm = ent_count g 0).
    { rewrite (dimension_lagrange rank g 1 dm t W T (le_n 1) HA U). rewrite Nat.sub_diag. simpl.
      destruct p1_surface as [-> | ->]; simpl; lia. }
    assert (Lt : forall v, In v (vertices_met g) -> v < ent_count g 0).
    { intros x Hx. apply in_flat_map in Hx. destruct Hx as (c & Hc & Hx). apply (wf_iter_In g W 2 c) in Hc; auto.
      eapply (wf_sub_lt g W c 0 x); auto. }
    apply (first_determined rank g _ W WF dm HA (fun a => snd (fst a)) ) with (d := 0) (e := v) (k := 0) (n := n); auto.
    + intros a Ha. rewrite p1_walk in Ha. apply in_map_iff in Ha. destruct Ha as (x & <- & Hx). cbn [fst snd]. rewrite Z. auto.
    + intros a b Ha Hb. rewrite p1_walk in *. apply in_map_iff in Ha. destruct Ha as (x & <- & Hx).
      apply in_map_iff in Hb. destruct Hb as (y & <- & Hy). cbn [fst snd]. intros H.
      apply (before_map (fun v => (0, v, 0)) _ x y slot_inj) in H.
      destruct (lt_eq_lt_dec x y) as [[L | ->]|L]; auto.
      * now apply before_neq in H.
      * exfalso. apply (before_asym _ _ _ H). apply O; auto.
Qed.
End Vertices.

(** ** The shapes *)

Lemma built_vertices i t npts cells : vertices_met (grid_of_cells i t npts cells) = concat cells.
Proof.
  unfold vertices_met. cbn [g_iter g_sub grid_of_cells]. rewrite flat_map_concat_map. f_equal. apply map_nth_seq.
Qed.

(** DOF 2 of a triangulated screen is at the far corner of the first square. *)
Theorem triangles_third : forall n b i rank dm, screen_triangles n = Ok b ->
  assign_dofs rank (built_grid i Triangle b) (lagrange 1) = Ok dm -> listed dm 0 (n + 2) 0 2.
Proof.
  intros n b i rank dm E H. assert (Hn : n <> 0) by (intros ->; discriminate).
  pose proof (triangles_counted n b i E) as K.
  destruct (screen_triangles_spec n Hn) as (b' & E' & P & C & Lc). rewrite E in E'. injection E' as <-.
  assert (V : exists rest, vertices_met (built_grid i Triangle b) = 0 :: 1 :: n + 2 :: rest).
  { unfold built_grid. rewrite built_vertices, C, map_snd_enumerate. unfold triangle_cells.
    destruct n as [|n]; [lia|]. cbn [seq flat_map app concat lower]. eexists. cbn [app]. reflexivity. }
  destruct V as (rest & V).
  apply (vertex_position rank _ dm Triangle (cn_wf _ _ _ _ _ K) eq_refl H); rewrite V; [reflexivity|].
  cbn [firstn]. repeat constructor; simpl; lia.
Qed.

(** DOF 2 of a screen of quadrilaterals is at the start of the second row. *)
Theorem quads_third : forall n b i rank dm, screen_quadrilaterals n = Ok b ->
  assign_dofs rank (built_grid i Quadrilateral b) (lagrange 1) = Ok dm -> listed dm 0 (n + 1) 0 2.
Proof.
  intros n b i rank dm E H. assert (Hn : n <> 0) by (intros ->; discriminate).
  pose proof (quads_counted n b i E) as K.
  destruct (screen_quadrilaterals_spec n Hn) as (b' & E' & P & C & Lc). rewrite E in E'. injection E' as <-.
  assert (V : exists rest, vertices_met (built_grid i Quadrilateral b) = 0 :: 1 :: n + 1 :: rest).
  { unfold built_grid. rewrite built_vertices, C, map_snd_enumerate. unfold quad_cells.
    destruct n as [|n]; [lia|]. cbn [seq flat_map app concat quad]. eexists. cbn [app]. reflexivity. }
  destruct V as (rest & V).
  apply (vertex_position rank _ dm Quadrilateral (cn_wf _ _ _ _ _ K) eq_refl H); rewrite V; [reflexivity|].
  cbn [firstn]. repeat constructor; simpl; lia.
Qed.

Lemma sphere_first_cell R L : exists b, regular_sphere R L 1 = Ok b /\ b_points b = enumerate (points_of b) /\ b_cells b = enumerate (cells_of b) /\
  exists a d rest, cells_of b = [0; a; d] :: rest /\ a <> 0 /\ (0 < L -> 6 <= a).
Proof.
  destruct (sphere_built R (fun pts cells => 6 <= length pts /\ exists a d rest, cells = [0; a; d] :: rest /\ a <> 0 /\ (6 < length pts -> 6 <= a)) L)
    as (b & E & P & C & Np & _ & _ & Hl & a & d & rest & Hc & Ha & H6).
  - intros pts cells np SU (Hl & a & d & rest & -> & Ha & _) _. split; [rewrite app_length; lia|].
    cbn [flat_map children app]. eexists. eexists. eexists. split; [reflexivity|]. unfold mid. lia.
  - split; [cbn; lia|]. exists 1, 2. eexists. split; [reflexivity|]. cbn. lia.
  - exists b. repeat (split; auto). exists a, d, rest. split; auto. split; auto. intros HL. apply H6. rewrite Np.
    destruct L as [|L]; [lia|]. assert (1 <= 4 ^ L) by (apply Nat.le_succ_l, Nat.neq_0_lt_0, Nat.pow_nonzero; lia).
    replace (S L + 1) with (S (S L)) by lia. cbn [Nat.pow]. lia.
Qed.

(** DOF 1 of a refined sphere is at a vertex made by the last refinement. *)
Theorem sphere_second : forall R L b i rank dm, regular_sphere R L 1 = Ok b -> 0 < L ->
  assign_dofs rank (built_grid i Triangle b) (lagrange 1) = Ok dm -> exists v, 6 <= v /\ listed dm 0 v 0 1.
Proof.
  intros R L b i rank dm E HL H. pose proof (sphere_counted R L b i E) as K.
  destruct (sphere_first_cell R L) as (b' & E' & P & C & a & d & rest & Hc & Ha & H6). rewrite E in E'. injection E' as <-.
  exists a. split; auto.
  assert (V : vertices_met (built_grid i Triangle b) = 0 :: a :: d :: concat rest).
  { unfold built_grid. change (map snd (b_cells b)) with (cells_of b). rewrite built_vertices, Hc. reflexivity. }
  apply (vertex_position rank _ dm Triangle (cn_wf _ _ _ _ _ K) eq_refl H); rewrite V; [reflexivity|].
  cbn [firstn]. repeat constructor; simpl; lia.
Qed.

(** The octahedron is numbered as its vertices. *)
Theorem octahedron_numbers : forall R b i rank dm, regular_sphere R 0 1 = Ok b ->
  assign_dofs rank (built_grid i Triangle b) (lagrange 1) = Ok dm -> numbered_as_vertices dm.
Proof.
  intros R b i rank dm E H. pose proof (sphere_counted R 0 b i E) as K.
  apply (vertex_numbers rank _ dm Triangle (cn_wf _ _ _ _ _ K) eq_refl H (cn_used _ _ _ _ _ K)).
  rewrite (cn_V _ _ _ _ _ K). 
  assert (V : vertices_met (built_grid i Triangle b) = [0; 1; 2; 0; 2; 3; 0; 3; 4; 0; 4; 1; 5; 2; 1; 5; 3; 2; 5; 4; 3; 5; 1; 4])
    by (clear K H; vm_compute in E; inversion E; reflexivity).
  rewrite V. intros v v' Hlt Hv'. change (v' < 6) in Hv'.
  set (l := [0; 1; 2; 0; 2; 3; 0; 3; 4; 0; 4; 1; 5; 2; 1; 5; 3; 2; 5; 4; 3; 5; 1; 4]).
  set (p := nth v [0; 1; 2; 5; 8] 0). exists (firstn p l), (skipn (S p) l).
  destruct v as [|[|[|[|[|v]]]]]; try lia; (split; [reflexivity|]); cbn; lia.
Qed.

(** So is a single quadrilateral. *)
Theorem one_quad_numbers : forall b i rank dm, screen_quadrilaterals 1 = Ok b ->
  assign_dofs rank (built_grid i Quadrilateral b) (lagrange 1) = Ok dm -> numbered_as_vertices dm.
Proof.
  intros b i rank dm E H. pose proof (quads_counted 1 b i E) as K.
  apply (vertex_numbers rank _ dm Quadrilateral (cn_wf _ _ _ _ _ K) eq_refl H (cn_used _ _ _ _ _ K)).
  rewrite (cn_V _ _ _ _ _ K). injection E as <-. intros v v' Hlt Hv'. change (v' < 4) in Hv'.
  change (appears_before [0; 1; 2; 3] v v').
  exists (firstn v [0; 1; 2; 3]), (skipn (S v) [0; 1; 2; 3]).
  destruct v as [|[|[|v]]]; try lia; (split; [reflexivity|]); cbn; lia.
Qed.

(** On every other shape the numbers differ from the vertex numbers. *)
Theorem shapes_differ : forall rank i dm,
  (forall n b, screen_triangles n = Ok b -> assign_dofs rank (built_grid i Triangle b) (lagrange 1) = Ok dm -> ~ numbered_as_vertices dm) /\
  (forall n b, screen_quadrilaterals n = Ok b -> 2 <= n -> assign_dofs rank (built_grid i Quadrilateral b) (lagrange 1) = Ok dm -> ~ numbered_as_vertices dm) /\
  (forall R L b, regular_sphere R L 1 = Ok b -> 1 <= L -> assign_dofs rank (built_grid i Triangle b) (lagrange 1) = Ok dm -> ~ numbered_as_vertices dm).
Proof.
  intros rank i dm. split; [|split].
  - intros n b E H N. apply triangles_third with (1 := E) in H. apply N in H. destruct n; [discriminate|]. lia.
  - intros n b E Hn H N. apply quads_third with (1 := E) in H. apply N in H. lia.
  - intros R L b E HL H N. destruct (sphere_second R L b i rank dm E HL H) as (v & Hv & Hl). apply N in Hl. lia.
Qed.
