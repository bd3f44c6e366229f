(** * The matrix of continuous functions from that of discontinuous ones *)
From Coq Require Import Ring_theory Ring.
From Verif Require Import Base BaseFacts Topology TopologyFacts DofMap DofMapFacts SpecDof DofMapResults DofExamples Process Space SpecSpace SpaceResults Options Batch SpecBatch
  Adjacency SpecAdjacency Scalar Integrand CellPair Operators SpecLocal LocalFacts LocalResults Interleave Assembly SpecAssembly
  AssemblyFacts AssemblySingular AssemblyDense AssemblyExact AssemblyResults SpecAlgebra AlgebraFacts AlgebraResults
  SpecDistributed DistributedFacts DistributedResults SpecBroken.

Section Glue.
Context {T R : Type}.

Lemma dofs_at_row (fs : fspace T R) c : serial_space fs -> c < ent_count (fs_grid fs) 2 ->
  dofs_at fs c = nth c (dm_cells (sp_dofmap (fs_space fs))) [].
Proof.
  intros Sp Hc. assert (H := cell_row 0 _ _ _ (ss_grid _ Sp) (ss_family _ Sp) (ss_dofs _ Sp) c Hc).
  unfold dofs_at, has_cell_dofs in *. now rewrite H.
Qed.

Lemma dofs_at_dim (fs : fspace T R) c : serial_space fs -> c < ent_count (fs_grid fs) 2 ->
  length (dofs_at fs c) = el_dim (fs_family fs (g_ctype (fs_grid fs) c)).
Proof.
  intros Sp Hc. rewrite dofs_at_row by auto. eapply cell_row_length; eauto; apply Sp.
Qed.

(** Every DOF belongs to a cell. *)
Lemma dof_in_cell (fs : fspace T R) i : serial_space fs -> i < dm_size (sp_dofmap (fs_space fs)) ->
  exists c a, c < ent_count (fs_grid fs) 2 /\ nth_error (dofs_at fs c) a = Some i.
Proof.
  intros Sp Hi. assert (W := ss_grid _ Sp). assert (WF := ss_family _ Sp). assert (HA := ss_dofs _ Sp).
  apply (listed_lt_iff 0 _ _ _ W WF HA) in Hi. destruct Hi as (d & e & k & Hl).
  apply (listed_edof 0 _ _ _ W WF HA) in Hl.
  destruct (the_inv 0 _ _ _ W WF HA) as (tags & I).
  destruct (inv_from _ _ _ _ _ _ _ I d e) as (c & j & l0 & Hs & _).
  { intros E. rewrite E in Hl. now destruct k. }
  assert (Hc := proj1 Hs). exists c.
  destruct Hs as (_ & Hd & Hj).
  destruct (el_edofs (fs_family fs (g_ctype (fs_grid fs) c)) d j) as [l|] eqn:El.
  - assert (Hs : sub_at (fs_grid fs) c d j e) by (repeat split; auto).
    assert (Ln := edof_length 0 _ _ _ W WF HA c d j e Hs). unfold el_ndofs in Ln. rewrite El in Ln.
    assert (Hk : k < length l) by (rewrite <- Ln; apply nth_error_Some; congruence).
    destruct (nth_error l k) as [x|] eqn:Ex; [|apply nth_error_None in Ex; lia].
    destruct (cell_row_entity 0 _ _ _ W WF HA c d j e l k x Hs El Ex) as (n & H1 & H2).
    exists x. split; auto. rewrite dofs_at_row by auto. congruence.
  - exfalso. assert (Hs : sub_at (fs_grid fs) c d j e) by (repeat split; auto).
    assert (Ln := edof_length 0 _ _ _ W WF HA c d j e Hs). unfold el_ndofs in Ln. rewrite El in Ln.
    destruct (edof _ d e); [now destruct k|discriminate].
Qed.

Lemma glue_exists (cont disc : fspace T R) : serial_space cont -> serial_space disc -> broken cont disc -> exists p, glues cont disc p.
Proof.
  intros Sc Sd B. assert (Eg := bk_grid _ _ B).
  destruct (finite_choice (fun k i => exists c a, c < ent_count (fs_grid cont) 2 /\ nth_error (dofs_at disc c) a = Some k /\ nth_error (dofs_at cont c) a = Some i)
    (dm_size (sp_dofmap (fs_space disc)))) as (p & Hp).
  { intros k Hk. destruct (dof_in_cell disc k Sd Hk) as (c & a & Hc & Ha). rewrite Eg in Hc.
    destruct (nth_error (dofs_at cont c) a) as [i|] eqn:Ei.
    - exists i, c, a. auto.
    - exfalso. apply nth_error_None in Ei. assert (a < length (dofs_at disc c)) by (apply nth_error_Some; congruence).
      rewrite dofs_at_dim in Ei, H by (rewrite ?Eg; auto). rewrite Eg, (bk_dim _ _ B) in H; [lia|].
      apply wf_ctype; [apply Sc|auto]. }
  assert (M : forall c, c < ent_count (fs_grid cont) 2 -> dofs_at cont c = map p (dofs_at disc c)).
  { intros c Hc. assert (Hc' : c < ent_count (fs_grid disc) 2) by now rewrite Eg.
    apply nth_error_ext. intros a. rewrite nth_error_map.
    destruct (nth_error (dofs_at disc c) a) as [k|] eqn:Ek; cbn [option_map].
    - assert (Hk : k < dm_size (sp_dofmap (fs_space disc))) by (eapply serial_dofs_lt; eauto; eapply nth_error_In; eauto).
      destruct (Hp k Hk) as (c' & a' & Hc1 & H1 & H2).
      assert (Hc1' : c' < ent_count (fs_grid disc) 2) by now rewrite Eg.
      assert (c' = c) as ->.
      { apply (interior_disjoint 0 _ _ _ (ss_grid _ Sd) (ss_family _ Sd) (ss_dofs _ Sd) c' c k); auto.
        - rewrite Eg. apply (bk_interior _ _ B).
        - rewrite <- dofs_at_row by auto. eapply nth_error_In; eauto.
        - rewrite <- dofs_at_row by auto. eapply nth_error_In; eauto. }
      assert (a' = a) as ->; [|auto].
      destruct (cell_dofs_distinct_in_range _ _ _ _ c (ss_grid _ Sd) (ss_family _ Sd) (ss_dofs _ Sd) Hc') as (l & Hl & _ & Nd & _).
      unfold dofs_at in H1, Ek. unfold has_cell_dofs in Hl. rewrite Hl in H1, Ek.
      rewrite NoDup_nth_error in Nd. apply Nd; [apply nth_error_Some; congruence|congruence].
    - apply nth_error_None in Ek. apply nth_error_None. rewrite dofs_at_dim in * by auto.
      rewrite Eg, (bk_dim _ _ B) in Ek; [lia|]. apply wf_ctype; [apply Sc|auto]. }
  exists p. split; [exact M|]. rewrite !serial_size by auto. split.
  - intros k Hk. destruct (Hp k Hk) as (c & a & Hc & _ & H2). eapply serial_dofs_lt; eauto. eapply nth_error_In; eauto.
  - intros i Hi. destruct (dof_in_cell cont i Sc Hi) as (c & a & Hc & Ha). rewrite M, nth_error_map in Ha by auto.
    destruct (nth_error (dofs_at disc c) a) as [k|] eqn:Ek; [|discriminate Ha]. exists k. injection Ha as <-. split; auto.
    apply (serial_dofs_lt disc Sd c); [now rewrite Eg|]. eapply nth_error_In; eauto.
Qed.

End Glue.

Section Matrices.
Context {T R : Type} (S : scalar T R) (one : T) (RT : ring_theory (s_zero S) one (s_add S) (s_mul S) (s_sub S) (s_neg S) eq) (X : externals R).
Add Ring TRing : RT.

Lemma total_swap3 {A B C} (l : list A) (m : list B) (n : list C) f :
  total S l (fun x => total S m (fun y => total S n (fun z => f x y z))) =
  total S n (fun z => total S l (fun x => total S m (fun y => f x y z))).
Proof.
  symmetry. rewrite (total_swap S one RT). apply total_ext. intros x _. apply (total_swap S one RT).
Qed.

Lemma enumerate_map' {A B} (f : A -> B) (l : list A) : enumerate (map f l) = map (fun x => (fst x, f (snd x))) (enumerate l).
Proof.
  unfold enumerate. rewrite map_length. generalize 0. induction l as [|x l IH]; intros n; cbn [map length seq combine]; [reflexivity|].
  now rewrite IH.
Qed.

Lemma matrix_glued val (test trial dtest dtrial : fspace T R) p q i j :
  fs_grid dtest = fs_grid test -> fs_grid dtrial = fs_grid trial ->
  (forall c, c < ent_count (fs_grid test) 2 -> dofs_at test c = map p (dofs_at dtest c)) ->
  (forall c, c < ent_count (fs_grid trial) 2 -> dofs_at trial c = map q (dofs_at dtrial c)) ->
  (forall c k, c < ent_count (fs_grid dtest) 2 -> In k (dofs_at dtest c) -> k < global_size (fs_space dtest)) ->
  (forall c l, c < ent_count (fs_grid dtrial) 2 -> In l (dofs_at dtrial c) -> l < global_size (fs_space dtrial)) ->
  matrix_entry S val test trial i j =
  glued_entry S p q (global_size (fs_space dtest)) (global_size (fs_space dtrial)) (matrix_entry S val dtest dtrial) i j.
Proof.
  intros Eg Eg' Mp Mq Rp Rq. unfold glued_entry.
  transitivity (total S (seq 0 (global_size (fs_space dtest))) (fun k => total S (seq 0 (global_size (fs_space dtrial))) (fun l =>
    total S (seq 0 (ent_count (fs_grid test) 2)) (fun t => total S (seq 0 (ent_count (fs_grid trial) 2)) (fun s =>
      total S (enumerate (dofs_at dtest t)) (fun ai => total S (enumerate (dofs_at dtrial s)) (fun bj =>
        if (p k =? i) && (q l =? j) then if (snd ai =? k) && (snd bj =? l) then val t s (fst ai) (fst bj) else s_zero S else s_zero S))))))).
  2:{ apply total_ext. intros k _. apply total_ext. intros l _. unfold matrix_entry. rewrite Eg, Eg'.
      do 4 (rewrite (if_total S one RT); apply total_ext; intros ? _). reflexivity. }
  rewrite total_swap3. unfold matrix_entry. apply total_ext. intros t Ht. rewrite total_swap3. apply total_ext. intros s Hs.
  apply in_seq in Ht, Hs. rewrite Mp, Mq by lia. rewrite !enumerate_map', (total_map S). rewrite total_swap3. apply total_ext. intros [a k0] Ha.
  rewrite (total_map S), total_swap3. apply total_ext. intros [b l0] Hb. cbn [fst snd].
  assert (Hk : k0 < global_size (fs_space dtest)).
  { apply (Rp t); [rewrite Eg; lia|]. apply In_enumerate in Ha. eapply nth_error_In; eauto. }
  assert (Hl : l0 < global_size (fs_space dtrial)).
  { apply (Rq s); [rewrite Eg'; lia|]. apply In_enumerate in Hb. eapply nth_error_In; eauto. }
  symmetry. rewrite <- (total_pick S one RT (global_size (fs_space dtest)) k0) by auto. apply total_ext. intros k _.
  destruct (Nat.eqb_spec k0 k) as [->|].
  - rewrite <- (total_pick S one RT (global_size (fs_space dtrial)) l0) by auto. apply total_ext. intros l _.
    destruct (Nat.eqb_spec l0 l) as [->|]; cbn [andb]; [reflexivity|]. now destruct (_ && _).
  - apply (total_zero S one RT). intros l _. cbn [andb]. now destruct (_ && _).
Qed.

(** The values of pairs of cells do not depend on the numbering of the DOFs. *)
Lemma pair_value_broken O deg pts (test trial dtest dtrial : fspace T R) t s a b v : broken test dtest -> broken trial dtrial ->
  pair_value S X O deg pts dtest dtrial t s a b v <-> pair_value S X O deg pts test trial t s a b v.
Proof.
  intros B B'. unfold pair_value, singular_value, regular_value, touching.
  rewrite (bk_grid _ _ B), (bk_grid _ _ B'), (bk_basis _ _ B), (bk_basis _ _ B'). reflexivity.
Qed.

Lemma broken_setting wmod (O : operator T R) o deg pts ct (test trial dtest dtrial : fspace T R) :
  dense_setting X wmod O o deg pts ct test trial -> serial_space dtest -> serial_space dtrial -> broken test dtest -> broken trial dtrial ->
  dense_setting X wmod O o deg pts ct dtest dtrial.
Proof.
  intros [St Ss Sa Tt Ts G1 G2 Ct Cs Fo Pr Si Hb Hw H1 H2 H3] Sd Sd' B B'.
  constructor; auto; unfold same_object, in_space, has_components in *;
    rewrite ?(bk_grid _ _ B), ?(bk_grid _ _ B'), ?(bk_components _ _ B), ?(bk_components _ _ B'); auto.
Qed.

Lemma serial_lt (fs : fspace T R) : serial_space fs -> forall c i, c < ent_count (fs_grid fs) 2 -> In i (dofs_at fs c) -> i < global_size (fs_space fs).
Proof. intros Sp c i Hc Hi. rewrite serial_size by auto. eapply serial_dofs_lt; eauto. Qed.

Theorem glued_matrix rt wmod (O : operator T R) o deg pts ct test trial dtest dtrial :
  legal_runtime (s_add S) rt -> dense_setting X wmod O o deg pts ct test trial ->
  serial_space dtest -> serial_space dtrial -> broken test dtest -> broken trial dtrial ->
  exists m dm e p q,
    assemble S X rt wmod O o trial test = Ok m /\ assemble S X rt wmod O o dtrial dtest = Ok dm /\
    glues test dtest p /\ glues trial dtrial q /\
    (forall k l, k < global_size (fs_space dtest) -> l < global_size (fs_space dtrial) ->
      nth_error dm (k + global_size (fs_space dtest) * l) = Some (e k l)) /\
    forall i j, i < global_size (fs_space test) -> j < global_size (fs_space trial) ->
      nth_error m (i + global_size (fs_space test) * j) =
        Some (glued_entry S p q (global_size (fs_space dtest)) (global_size (fs_space dtrial)) e i j).
Proof.
  intros L D Sd Sd' B B'. assert (D' := broken_setting _ _ _ _ _ _ _ _ _ _ D Sd Sd' B B').
  destruct (assembled S one RT X rt wmod O o deg pts ct test trial L D) as (m & val & E & _ & V & H).
  destruct (assembled S one RT X rt wmod O o deg pts ct dtest dtrial L D') as (m' & val' & E' & _ & V' & H').
  destruct (glue_exists test dtest (dn_test _ _ _ _ _ _ _ _ _ D) Sd B) as (p & Gp).
  destruct (glue_exists trial dtrial (dn_trial _ _ _ _ _ _ _ _ _ D) Sd' B') as (q & Gq).
  exists m, m', (matrix_entry S val dtest dtrial), p, q. do 4 (split; [assumption|]). split.
  - intros k l Hk Hl. rewrite (H' k l Hk Hl). f_equal. apply matrix_ext. intros t s a b Ht Hs.
    apply (pair_value_unique S X O deg pts dtest dtrial t s a b); [auto|]. apply (pair_value_broken _ _ _ _ _ _ _ _ _ _ _ _ B B').
    apply V; [now rewrite <- (bk_grid _ _ B)|now rewrite <- (bk_grid _ _ B')].
  - intros i j Hi Hj. rewrite (H i j Hi Hj). f_equal.
    apply matrix_glued; [apply (bk_grid _ _ B)|apply (bk_grid _ _ B')|apply Gp|apply Gq|now apply serial_lt|now apply serial_lt].
Qed.

(** The same for the matrix of the pairs of cells that touch. *)
Theorem glued_near rt wmod (O : operator T R) o deg pts ct test trial dtest dtrial :
  legal_runtime (s_add S) rt -> dense_setting X wmod O o deg pts ct test trial ->
  serial_space dtest -> serial_space dtrial -> broken test dtest -> broken trial dtrial ->
  exists m dm p q,
    assemble_singular_part S X rt wmod O o (shape_of test trial) trial test = Ok m /\
    assemble_singular_part S X rt wmod O o (shape_of dtest dtrial) dtrial dtest = Ok dm /\
    glues test dtest p /\ glues trial dtrial q /\
    forall i j, sparse_entry S m i j =
      glued_entry S p q (global_size (fs_space dtest)) (global_size (fs_space dtrial)) (sparse_entry S dm) i j.
Proof.
  intros L D Sd Sd' B B'. assert (D' := broken_setting _ _ _ _ _ _ _ _ _ _ D Sd Sd' B B').
  destruct (near_entries S one RT X rt wmod O o deg pts ct test trial L D) as (m & val & E & V & H).
  destruct (near_entries S one RT X rt wmod O o deg pts ct dtest dtrial L D') as (m' & val' & E' & V' & H').
  destruct (glue_exists test dtest (dn_test _ _ _ _ _ _ _ _ _ D) Sd B) as (p & Gp).
  destruct (glue_exists trial dtrial (dn_trial _ _ _ _ _ _ _ _ _ D) Sd' B') as (q & Gq).
  exists m, m', p, q. do 4 (split; [assumption|]).
  intros i j. unfold sparse_entry at 1. rewrite H.
  rewrite (matrix_glued _ test trial dtest dtrial p q i j);
    [|apply (bk_grid _ _ B)|apply (bk_grid _ _ B')|apply Gp|apply Gq|now apply serial_lt|now apply serial_lt].
  unfold glued_entry. apply total_ext. intros k _. apply total_ext. intros l _. destruct (_ && _); [|reflexivity].
  unfold sparse_entry. rewrite H'. apply matrix_ext. intros t s a b Ht Hs.
  replace (touchb dtest dtrial t s) with (touchb test trial t s).
  - destruct (touchb test trial t s); [|reflexivity].
    apply (pair_value_unique S X O deg pts dtest dtrial t s a b); [|now apply V']. apply (pair_value_broken _ _ _ _ _ _ _ _ _ _ _ _ B B').
    apply V; [now rewrite <- (bk_grid _ _ B)|now rewrite <- (bk_grid _ _ B')].
  - unfold touchb. now rewrite (bk_grid _ _ B), (bk_grid _ _ B').
Qed.

End Matrices.

(** ** Exact arithmetic *)

Theorem exact_glued_matrix : forall (T R : Type) (S : scalar T R) (X : externals R) rt wmod (O : operator T R) o deg pts ct (test trial dtest dtrial : fspace T R),
  exact S -> legal_runtime (s_add S) rt -> dense_setting X wmod O o deg pts ct test trial ->
  serial_space dtest -> serial_space dtrial -> broken test dtest -> broken trial dtrial ->
  exists m dm e p q,
    assemble S X rt wmod O o trial test = Ok m /\ assemble S X rt wmod O o dtrial dtest = Ok dm /\
    glues test dtest p /\ glues trial dtrial q /\
    (forall k l, k < global_size (fs_space dtest) -> l < global_size (fs_space dtrial) ->
      nth_error dm (k + global_size (fs_space dtest) * l) = Some (e k l)) /\
    forall i j, i < global_size (fs_space test) -> j < global_size (fs_space trial) ->
      nth_error m (i + global_size (fs_space test) * j) =
        Some (glued_entry S p q (global_size (fs_space dtest)) (global_size (fs_space dtrial)) e i j).
Proof. intros T R S X rt wmod O o deg pts ct test trial dtest dtrial ((one & RT) & _). exact (glued_matrix S one RT X rt wmod O o deg pts ct test trial dtest dtrial). Qed.

Theorem exact_glued_near : forall (T R : Type) (S : scalar T R) (X : externals R) rt wmod (O : operator T R) o deg pts ct (test trial dtest dtrial : fspace T R),
  exact S -> legal_runtime (s_add S) rt -> dense_setting X wmod O o deg pts ct test trial ->
  serial_space dtest -> serial_space dtrial -> broken test dtest -> broken trial dtrial ->
  exists m dm p q,
    assemble_singular_part S X rt wmod O o (global_size (fs_space test), global_size (fs_space trial)) trial test = Ok m /\
    assemble_singular_part S X rt wmod O o (global_size (fs_space dtest), global_size (fs_space dtrial)) dtrial dtest = Ok dm /\
    glues test dtest p /\ glues trial dtrial q /\
    forall i j, sparse_entry S m i j =
      glued_entry S p q (global_size (fs_space dtest)) (global_size (fs_space dtrial)) (sparse_entry S dm) i j.
Proof. intros T R S X rt wmod O o deg pts ct test trial dtest dtrial ((one & RT) & _). exact (glued_near S one RT X rt wmod O o deg pts ct test trial dtest dtrial). Qed.

(** The matrix of the discontinuous space is unique up to the numbering: [p] is
    determined by [glues]. *)
Theorem glues_unique {T R : Type} (cont disc : fspace T R) p p' : serial_space disc -> fs_grid disc = fs_grid cont ->
  glues cont disc p -> glues cont disc p' -> forall k, k < global_size (fs_space disc) -> p k = p' k.
Proof.
  intros Sd Eg (M & _) (M' & _) k Hk. rewrite serial_size in Hk by auto. destruct (dof_in_cell disc k Sd Hk) as (c & a & Hc & Ha). rewrite Eg in Hc.
  assert (E : nth_error (map p (dofs_at disc c)) a = nth_error (map p' (dofs_at disc c)) a) by now rewrite <- M, <- M'.
  rewrite !nth_error_map, Ha in E. now injection E.
Qed.
