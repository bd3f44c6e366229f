(** * The dense matrix *)
From Coq Require Import Ring_theory.
From Verif Require Import Base BaseFacts Topology TopologyFacts DofMap SpecDof Colouring SpecColour ColouringResults Process Space SpecSpace
  Options Batch SpecBatch BatchFacts BatchResults Adjacency SpecAdjacency AdjacencyFacts AdjacencyResults
  Scalar Integrand CellPair Operators SpecLocal LocalFacts LocalResults Interleave Assembly SpecAssembly InterleaveFacts AssemblyFacts
  AssemblyRaces AssemblyValues AssemblySingular.

Section Dense.
Context {T R : Type} (S : scalar T R) (X : externals R).

(** ** The setting *)

Lemma dense_singular wmod (O : operator T R) o deg pts ct test trial : dense_setting X wmod O o deg pts ct test trial ->
  g_id (fs_grid test) = g_id (fs_grid trial) -> singular_setting X wmod O o deg test trial.
Proof.
  intros D E. destruct (dn_singular _ _ _ _ _ _ _ _ _ D E) as (A1 & A2 & A3 & A4).
  destruct D as [St Ss Sa Tt Ts G1 G2 Ct Cs Fo Pr Si Hb Hw H1 H2 _].
  constructor; auto using serial_member; now rewrite Tt.
Qed.

(** Whether the cells touch. *)
Definition touchb (test trial : fspace T R) (t s : nat) : bool :=
  equal_grids (fs_grid test) (fs_grid trial) &&
  existsb (fun v => memb v (g_sub (fs_grid trial) t 0)) (g_sub (fs_grid trial) s 0).

Lemma touchb_spec test trial t s : same_object test trial -> touchb test trial t s = true <-> touching test trial t s.
Proof.
  intros Sa. unfold touchb, touching, equal_grids, touch. rewrite andb_true_iff, Nat.eqb_eq, existsb_exists.
  split.
  - intros (E & v & H1 & H2). split; auto. rewrite (Sa E). exists v. apply memb_In in H2. auto.
  - intros (E & v & H1 & H2). split; auto. rewrite (Sa E) in *. exists v. split; auto. now apply memb_In.
Qed.

Lemma neighbours_touchb test trial t s : same_object test trial ->
  t < ent_count (fs_grid test) 2 -> s < ent_count (fs_grid trial) 2 ->
  neighbours (fs_grid test) (fs_grid trial) t s = Ok (touchb test trial t s).
Proof.
  intros Sa Ht Hs. unfold neighbours, touchb. destruct (equal_grids _ _) eqn:E; [|reflexivity].
  assert (Eg : fs_grid test = fs_grid trial) by (apply Sa; now apply Nat.eqb_eq in E).
  rewrite Eg in Ht. unfold the_cell, entity_exists. apply Nat.ltb_lt in Ht, Hs. rewrite Ht, Hs. reflexivity.
Qed.

(** ** The phases *)

Definition regular_of (O : operator T R) (test trial : fspace T R) (ct : cell_type) (q : quadrature R) : regular_data :=
  mkRegular (qd_points q) (qd_weights q) (qd_points q) (qd_weights q)
    (tabulated (op_table_derivs O) (length (qd_weights q)) (el_dim (fs_family test ct)) (fs_components test ct) (fs_basis test ct (qd_points q)))
    (tabulated (op_table_derivs O) (length (qd_weights q)) (el_dim (fs_family trial ct)) (fs_components trial ct) (fs_basis trial ct (qd_points q))).

Lemma regular_rule_Ok O test trial ct n q : proper_rules X -> In ct (g_types (fs_grid test) 2) -> In ct (g_types (fs_grid trial) 2) ->
  x_simplex X ct n = Some q -> regular_rule X O test trial ct ct n n = Ok (regular_of O test trial ct q).
Proof.
  intros PR Ht Hs E. destruct (pr_simplex _ PR _ _ _ E) as (L1 & L2).
  unfold regular_rule, regular_of. rewrite E. cbn [unwrap bind]. rewrite copy_points_Ok by auto. cbn [bind].
  rewrite !tabulate_Ok by auto. cbn [bind]. rewrite L2. reflexivity.
Qed.

(** What the pair of cells adds to the matrix. *)
Definition regular_ops (O : operator T R) (test trial : fspace T R) (ct : cell_type) (q : quadrature R) (p : nat * nat) : list (@op T) :=
  pair_ops S O (fs_basis test ct (qd_points q)) (fs_basis trial ct (qd_points q))
    (geometry_map X (fs_grid test) ct (qd_points q)) (geometry_map X (fs_grid trial) ct (qd_points q)) (qd_weights q) (qd_weights q)
    (global_size (fs_space test)) test trial (touchb test trial) (fst p) (snd p).

Lemma bounded_length (l : list nat) n : NoDup l -> (forall x, In x l -> x < n) -> length l <= n.
Proof.
  intros N B. rewrite <- (seq_length n 0). apply NoDup_incl_length; auto. intros x Hx. apply in_seq. specialize (B x Hx). lia.
Qed.

Lemma sum_ones {A : Type} (l : list A) : sum_list (map (fun _ => 1) l) = length l.
Proof. induction l as [|x l IH]; [reflexivity|]. cbn [map length]. rewrite <- IH. reflexivity. Qed.

Lemma phase_Ok wmod O o deg pts ct test trial q colours : dense_setting X wmod O o deg pts ct test trial ->
  x_simplex X ct (pts ct) = Some q ->
  independent test (fst colours) -> independent trial (snd colours) ->
  exists tasks, nonsingular_phase S X wmod O o (shape_of test trial) trial test ct ct (regular_of O test trial ct q) colours = Ok tasks /\
    Permutation (concat tasks) (flat_map (regular_ops O test trial ct q) (list_prod (fst colours) (snd colours))).
Proof.
  intros [St Ss Sa Tt Ts G1 G2 Ct Cs Fo Pr Si Hb Hw H1 H2 _] Eq (Nt & Bt & _) (Ns & Bs & _).
  destruct colours as [tc sc]. cbn [fst snd] in *.
  destruct (batches_tile nat wmod (get_batch_size o) Hb Hw) as (_ & BT).
  destruct (BT tc sc) as (bs & bt & (Ebs & _) & (Ebt & _) & Ed).
  { unfold fits. pose proof (bounded_length tc _ Nt Bt). lia. }
  { unfold fits. pose proof (bounded_length sc _ Ns Bs). lia. }
  unfold nonsingular_phase. cbn [fst snd]. unfold get_batch_size in Ed. rewrite Ed. cbn [bind].
  set (f := fun task : list nat * list nat => flat_map (fun s => flat_map (fun t => regular_ops O test trial ct q (t, s)) (fst task)) (snd task)).
  assert (Tct : In ct (g_types (fs_grid test) 2)) by (rewrite Tt; now left).
  assert (Scs : In ct (g_types (fs_grid trial) 2)) by (rewrite Ts; now left).
  destruct (pr_simplex _ Pr _ _ _ Eq) as (L1 & L2).
  assert (ctest : forall t, t < ent_count (fs_grid test) 2 -> g_ctype (fs_grid test) t = ct).
  { intros t Ht. assert (H := wf_ctype _ (ss_grid _ St) t Ht). rewrite Tt in H. destruct H as [H|[]]. auto. }
  assert (ctrial : forall t, t < ent_count (fs_grid trial) 2 -> g_ctype (fs_grid trial) t = ct).
  { intros t Ht. assert (H := wf_ctype _ (ss_grid _ Ss) t Ht). rewrite Ts in H. destruct H as [H|[]]. auto. }
  assert (E : mapM (fun task =>
      assemble_batch_nonadjacent S X O (shape_of test trial) ct ct trial (snd task) test (fst task)
        (qd_points q) (qd_weights q) (qd_points q) (qd_weights q)
        (re_trial_table (regular_of O test trial ct q)) (re_test_table (regular_of O test trial ct q))) (list_prod bs bt) =
    Ok (map (fun task => (f task, 1)) (list_prod bs bt))).
  { apply mapM_Ok_all. intros [ts ss] Hin. apply in_prod_iff in Hin. destruct Hin as (Hts & Hss). cbn [fst snd].
    assert (It : forall t, In t ts -> t < ent_count (fs_grid test) 2).
    { intros t H. apply Bt. rewrite <- Ebs. apply in_concat. eauto. }
    assert (Is : forall t, In t ss -> t < ent_count (fs_grid trial) 2).
    { intros t H. apply Bs. rewrite <- Ebt. apply in_concat. eauto. }
    unfold regular_of. cbn [re_trial_table re_test_table].
    rewrite (batch_values S X O (shape_of test trial) ct ct trial test ss ts (qd_points q) (qd_weights q) (qd_points q) (qd_weights q)
      (fs_components test ct) (fs_components trial ct) (fs_basis test ct (qd_points q)) (fs_basis trial ct (qd_points q))
      (fs_family test ct) (fs_family trial ct) (touchb test trial)); auto.
    - apply (wf_tdim _ (ss_grid _ St)).
    - apply (wf_tdim _ (ss_grid _ Ss)).
    - now apply fs_element_Ok.
    - now apply fs_element_Ok.
    - congruence.
    - congruence.
    - intros t H. destruct (dofs_at_spec test t St (It t H)) as (A & _ & _ & B & _). rewrite ctest in B by auto. split; auto.
    - intros t H. destruct (dofs_at_spec trial t Ss (Is t H)) as (A & _ & _ & B & _). rewrite ctrial in B by auto. split; auto.
    - intros t s H H'. apply neighbours_touchb; auto. }
  cbn [re_trial_points re_trial_weights re_test_points re_test_weights regular_of] in *.
  rewrite E. cbn [bind]. rewrite map_map. cbn [snd].
  replace (sum_list _) with (length (list_prod bs bt)).
  2: { symmetry. apply sum_ones. }
  rewrite Nat.eqb_refl. eexists. split; [reflexivity|]. rewrite map_map. cbn [fst].
  rewrite concat_map_flat_map. rewrite <- Ebs, <- Ebt.
  rewrite <- (Permutation_flat_map (regular_ops O test trial ct q) _ _ (task_pairs_product bs bt)).
  rewrite flat_map_flat_map. apply Permutation_refl'. apply flat_map_ext. intros [ts ss].
  unfold f, task_pairs. cbn [fst snd]. rewrite flat_map_flat_map. apply flat_map_ext. intros s. now rewrite flat_map_map.
Qed.

Lemma mapM_each {A B : Type} (f : A -> res B) (P : A -> B -> Prop) l : (forall x, In x l -> exists y, f x = Ok y /\ P x y) ->
  exists ys, mapM f l = Ok ys /\ Forall2 P l ys.
Proof.
  induction l as [|x l IH]; intros H; cbn [mapM].
  - exists []. auto.
  - destruct (H x (or_introl eq_refl)) as (y & Ey & Py). destruct IH as (ys & Eys & Pys); [intros; apply H; now right|].
    exists (y :: ys). rewrite Ey. cbn [bind]. rewrite Eys. cbn [bind]. auto.
Qed.

(** The colours of a space with one cell type. *)
Lemma one_type_classes (fs : fspace T R) ct : serial_space fs -> g_types (fs_grid fs) 2 = [ct] ->
  exists col classes, cell_colouring (fs_grid fs) (fs_family fs) = Ok col /\ assoc ct_eqb ct col = Some classes /\
    (forall l, In l classes -> independent fs l) /\ Permutation (concat classes) (seq 0 (ent_count (fs_grid fs) 2)).
Proof.
  intros SS Tt. assert (SS' := SS). destruct SS' as [W F P Ow D Cr Np].
  destruct (colouring_partition _ _ W F P) as (col & K & E & Keys & Cc & All & Once & Ty & Nd).
  assert (A : exists classes, assoc ct_eqb ct col = Some classes).
  { rewrite Tt in Keys. destruct col as [|[t cl] col]; [discriminate|]. cbn in Keys. inversion Keys; subst t. cbn.
    assert (Er : ct_eqb ct ct = true) by now apply ct_eqb_eq. rewrite Er. eauto. }
  destruct A as (classes & A). exists col, classes. split; auto. split; auto. split.
  { intros l Hl. eapply classes_independent; eauto. }
  apply NoDup_Permutation.
  - assert (G : forall pre suf, classes = pre ++ suf -> NoDup (concat suf)).
    { intros pre suf. revert pre. induction suf as [|l suf IH]; intros pre Ecl; cbn; [constructor|].
      apply NoDup_app_iff. assert (Hl : nth_error classes (length pre) = Some l) by (rewrite Ecl, nth_error_app2, Nat.sub_diag; auto).
      split; [eapply Nd; eauto|]. split; [apply (IH (pre ++ [l])); now rewrite <- app_assoc|].
      intros c Hc Hc'. apply in_concat in Hc'. destruct Hc' as (l' & Hl' & Hc'). apply In_nth_error in Hl'. destruct Hl' as (k & Hk).
      assert (Hl' : nth_error classes (length pre + Datatypes.S k) = Some l').
      { rewrite Ecl, nth_error_app2 by lia. replace (length pre + Datatypes.S k - length pre) with (Datatypes.S k) by lia. exact Hk. }
      destruct (Once ct (length pre) ct (length pre + Datatypes.S k) c) as (_ & Ek); [exists classes, l; auto|exists classes, l'; auto|lia]. }
    apply (G []). reflexivity.
  - apply seq_NoDup.
  - intros c. rewrite in_seq, in_concat. split.
    + intros (l & Hl & Hc). apply In_nth_error in Hl. destruct Hl as (k & Hk).
      destruct (Ty ct k c) as (B & _); [exists classes, l; auto|lia].
    + intros Hc. destruct (All c) as (k & _ & cl & l & A' & Hk & Hin); [lia|].
      assert (Ec : g_ctype (fs_grid fs) c = ct).
      { assert (H : In (g_ctype (fs_grid fs) c) [ct]) by (rewrite <- Tt; apply (wf_ctype _ W); lia). destruct H as [H|[]]; auto. }
      rewrite Ec in A'. assert (cl = classes) by congruence. subst cl. exists l. split; auto. eapply nth_error_In; eauto.
Qed.

(** All additions in an order that depends only on the colours. *)
Definition phase_ops (O : operator T R) (test trial : fspace T R) (ct : cell_type) (q : quadrature R) (colours : list nat * list nat)
  : list (@op T) := flat_map (regular_ops O test trial ct q) (list_prod (fst colours) (snd colours)).
Definition all_ops (O : operator T R) (test trial : fspace T R) (ct : cell_type) (q : quadrature R) (tcl scl : list (list nat))
  : list (@op T) := flat_map (phase_ops O test trial ct q) (list_prod tcl scl).

Theorem dense_run rt wmod O o deg pts ct test trial q tcol scol tcl scl memory :
  legal_runtime (s_add S) rt -> dense_setting X wmod O o deg pts ct test trial ->
  x_simplex X ct (pts ct) = Some q ->
  cell_colouring (fs_grid test) (fs_family test) = Ok tcol -> assoc ct_eqb ct tcol = Some tcl ->
  cell_colouring (fs_grid trial) (fs_family trial) = Ok scol -> assoc ct_eqb ct scol = Some scl ->
  length memory = global_size (fs_space test) * global_size (fs_space trial) ->
  exists phases, nonsingular_phases S X wmod O o (shape_of test trial) trial test scol tcol = Ok phases /\
    foldM (fun m tasks => rt_par rt tasks m) phases memory = Ok (after_ops (s_add S) (all_ops O test trial ct q tcl scl) memory).
Proof.
  intros L D Eq Et At Es As Lm. assert (D' := D). destruct D' as [St Ss Sa Tt Ts G1 G2 Ct Cs Fo Pr Si Hb Hw H1 H2 _].
  assert (It : forall l, In l tcl -> independent test l) by (intros; eapply classes_independent; eauto).
  assert (Is : forall l, In l scl -> independent trial l) by (intros; eapply classes_independent; eauto).
  destruct (Si ct (or_introl eq_refl)) as (Deg & _). unfold get_regular_quadrature_degree in Deg.
  assert (Tct : In ct (g_types (fs_grid test) 2)) by (rewrite Tt; now left).
  assert (Scs : In ct (g_types (fs_grid trial) 2)) by (rewrite Ts; now left).
  destruct (mapM_each (nonsingular_phase S X wmod O o (shape_of test trial) trial test ct ct (regular_of O test trial ct q))
    (fun c tasks => Permutation (concat tasks) (phase_ops O test trial ct q c)) (list_prod tcl scl)) as (phases & Ep & Fp).
  { intros [a b] Hab. apply in_prod_iff in Hab. eapply phase_Ok; eauto; [apply It|apply Is]; tauto. }
  assert (E : nonsingular_phases S X wmod O o (shape_of test trial) trial test scol tcol = Ok phases).
  { unfold nonsingular_phases. rewrite (ss_processes _ St), (ss_processes _ Ss). unfold is_serial. cbn [Nat.eqb andb negb].
    cbn [shape_of fst snd]. rewrite !Nat.eqb_refl. cbn [andb negb]. fold (shape_of test trial).
    rewrite Tt, Ts. cbn [list_prod map app mapM]. unfold nonsingular_types. rewrite Deg. cbn [unwrap bind].
    rewrite (regular_rule_Ok O test trial ct _ q) by auto. cbn [bind]. rewrite At. cbn [unwrap bind]. rewrite As. cbn [unwrap bind].
    destruct tcl as [|l0 tcl].
    - cbn in Ep. inversion Ep. reflexivity.
    - rewrite Ep. cbn [bind concat]. now rewrite app_nil_r. }
  exists phases. split; auto.
  rewrite (run_phases S X rt wmod O o _ trial test scol tcol phases memory L St Ss Et Es E Lm). f_equal.
  assert (N : forall tasks, In tasks phases -> NoDup (map fst (concat tasks))).
  { intros tasks Hin. apply (phase_addresses S X wmod O o _ trial test scol tcol phases tasks St Ss Et Es E Hin). }
  clear - Fp N. unfold all_ops. revert memory. induction Fp as [|c tasks cs phases P Fp IH]; intros memory; cbn [map concat flat_map]; [reflexivity|].
  rewrite !after_ops_app. rewrite (after_ops_perm (s_add S) _ _ memory (N tasks (or_introl eq_refl)) P).
  apply IH. intros; apply N; now right.
Qed.

(** ** The singular part of the dense matrix *)

Lemma add_triplets_Ok rows (L : list (nat * nat * T)) memory :
  (forall i j v, In (i, j, v) L -> i + rows * j < length memory) ->
  foldM (add_triplet S rows) L memory = Ok (after_ops (s_add S) (map (entry_op rows) L) memory).
Proof.
  revert memory. induction L as [|[[i j] v] L IH]; intros memory H; cbn [foldM map].
  - now rewrite after_ops_nil.
  - assert (Hi := H i j v (or_introl eq_refl)). unfold add_triplet.
    destruct (nth_error memory (i + rows * j)) as [old|] eqn:Eo; [|apply nth_error_None in Eo; lia].
    rewrite (proj2 (vget_Ok _ _ _) Eo). cbn [bind]. unfold vset. apply Nat.ltb_lt in Hi. rewrite Hi. cbn [bind].
    rewrite IH by (intros a b w Hin; rewrite length_set_nth; apply (H a b w); now right).
    f_equal. change (entry_op rows (i, j, v) :: map (entry_op rows) L) with ([entry_op rows (i, j, v)] ++ map (entry_op rows) L).
    rewrite after_ops_app. f_equal. apply nth_error_ext. intros x. rewrite nth_error_after_ops. cbn [entry_op].
    unfold effect. cbn [fold_left fst snd]. apply Nat.ltb_lt in Hi. destruct (Nat.eqb_spec (i + rows * j) x) as [<-|Nx].
    + rewrite nth_error_set_nth_eq by auto. now rewrite Eo.
    + rewrite nth_error_set_nth_neq by auto. now destruct (nth_error memory x).
Qed.

(** All triplets, for any pair of spaces. *)
Definition singular_list (O : operator T R) (o : options) (deg : cell_type -> cell_type -> nat) (test trial : fspace T R) : list (nat * nat * T) :=
  if equal_grids (fs_grid test) (fs_grid trial) then
    match singular_rules (make_rule X O trial test) o (g_types (fs_grid test) 2) with
    | Ok st => all_triplets S X O deg test trial st
    | _ => []
    end
  else [].

Lemma singular_list_Ok rt wmod O o deg pts ct test trial : legal_runtime (s_add S) rt -> dense_setting X wmod O o deg pts ct test trial ->
  exists m, assemble_singular_part S X rt wmod O o (shape_of test trial) trial test = Ok m /\
    combine (combine (sm_rows m) (sm_cols m)) (sm_data m) = singular_list O o deg test trial /\
    forall i j v, In (i, j, v) (singular_list O o deg test trial) -> i < global_size (fs_space test) /\ j < global_size (fs_space trial).
Proof.
  intros L D. unfold singular_list. destruct (equal_grids (fs_grid test) (fs_grid trial)) eqn:Eg.
  - assert (Eg' := Eg). apply Nat.eqb_eq in Eg'. pose proof (dense_singular _ _ _ _ _ _ _ _ D Eg') as SS.
    destruct (singular_part_values S X rt wmod O o deg test trial L SS) as (st & m & Est & Em & E1 & E2 & E3 & E4).
    destruct (singular_part_inside S X rt wmod O o deg test trial L SS) as (m' & Em' & Hr & Hc & _). assert (m' = m) by congruence. subst m'.
    exists m. rewrite Est. split; auto. rewrite E1, E2, E3, combine_maps. split; auto.
    intros i j v Hin. split.
    + apply Hr. rewrite E1. apply (in_map (fun e => fst (fst e)) _ _ Hin).
    + apply Hc. rewrite E2. apply (in_map (fun e => snd (fst e)) _ _ Hin).
  - exists (sparse_new (shape_of test trial)). unfold assemble_singular_part. rewrite Eg. cbn [negb]. split; [reflexivity|]. split; [reflexivity|].
    intros i j v [].
Qed.

Theorem into_memory_Ok rt wmod O o deg pts ct test trial output :
  legal_runtime (s_add S) rt -> dense_setting X wmod O o deg pts ct test trial ->
  length output = global_size (fs_space test) * global_size (fs_space trial) ->
  exists q tcol scol tcl scl,
    x_simplex X ct (pts ct) = Some q /\
    cell_colouring (fs_grid test) (fs_family test) = Ok tcol /\ assoc ct_eqb ct tcol = Some tcl /\
    cell_colouring (fs_grid trial) (fs_family trial) = Ok scol /\ assoc ct_eqb ct scol = Some scl /\
    Permutation (concat tcl) (seq 0 (ent_count (fs_grid test) 2)) /\ Permutation (concat scl) (seq 0 (ent_count (fs_grid trial) 2)) /\
    assemble_into_memory S X rt wmod O o trial test output =
    Ran (Ok (after_ops (s_add S) (all_ops O test trial ct q tcl scl ++
      map (entry_op (global_size (fs_space test))) (singular_list O o deg test trial)) output)).
Proof.
  intros L D Lo. destruct (dn_simplex _ _ _ _ _ _ _ _ _ D ct (or_introl eq_refl)) as (_ & q & Eq).
  destruct (one_type_classes test ct (dn_test _ _ _ _ _ _ _ _ _ D) (dn_test_type _ _ _ _ _ _ _ _ _ D)) as (tcol & tcl & Et & At & _ & Pt).
  destruct (one_type_classes trial ct (dn_trial _ _ _ _ _ _ _ _ _ D) (dn_trial_type _ _ _ _ _ _ _ _ _ D)) as (scol & scl & Es & As & _ & Ps).
  exists q, tcol, scol, tcl, scl. repeat (split; [assumption|]).
  unfold assemble_into_memory. rewrite Lo, Nat.eqb_refl. cbn [negb].
  rewrite (ss_processes _ (dn_test _ _ _ _ _ _ _ _ _ D)), (ss_processes _ (dn_trial _ _ _ _ _ _ _ _ _ D)). cbn [is_serial Nat.eqb andb negb].
  rewrite Et. cbn [bind]. rewrite Es. cbn [bind].
  destruct (dense_run rt wmod O o deg pts ct test trial q tcol scol tcl scl output L D Eq Et At Es As Lo) as (phases & Ep & Er).
  fold (shape_of test trial). rewrite Ep. cbn [bind]. rewrite Er. cbn [bind].
  destruct (singular_list_Ok rt wmod O o deg pts ct test trial L D) as (m & Em & El & Hb).
  rewrite Em. cbn [bind]. rewrite El. cbn [shape_of fst].
  rewrite add_triplets_Ok.
  - now rewrite after_ops_app.
  - intros i j v Hin. rewrite length_after_ops, Lo. destruct (Hb i j v Hin). nia.
Qed.

(** ** Batch sizes *)

Lemma dense_set_batch wmod (O : operator T R) o n deg pts ct test trial : 0 < n -> n < wmod ->
  dense_setting X wmod O o deg pts ct test trial -> dense_setting X wmod O (set_batch_size n o) deg pts ct test trial.
Proof. intros Hn Hw [A1 A2 A3 A4 A5 A6 A7 A8 A9 B1 B2 B3 B4 B5 B6 B7 B8]. constructor; auto. Qed.

Lemma singular_set_batch wmod (O : operator T R) o n deg test trial : 0 < n -> n < wmod ->
  singular_setting X wmod O o deg test trial -> singular_setting X wmod O (set_batch_size n o) deg test trial.
Proof. intros Hn Hw [A1 A2 A3 A4 A5 A6 A7 A8 A9 B1 B2 B3 B4 B5]. constructor; auto. Qed.

Theorem dense_batch_independent rt rt' wmod O o n deg pts ct test trial output :
  legal_runtime (s_add S) rt -> legal_runtime (s_add S) rt' ->
  dense_setting X wmod O o deg pts ct test trial -> 0 < n -> n < wmod ->
  length output = global_size (fs_space test) * global_size (fs_space trial) ->
  exists result, assemble_into_memory S X rt wmod O o trial test output = Ran (Ok result) /\
    assemble_into_memory S X rt' wmod O (set_batch_size n o) trial test output = Ran (Ok result).
Proof.
  intros L L' D Hn Hw Lo. pose proof (dense_set_batch wmod O o n deg pts ct test trial Hn Hw D) as D'.
  destruct (into_memory_Ok rt wmod O o deg pts ct test trial output L D Lo) as (q & tcol & scol & tcl & scl & E1 & E2 & E3 & E4 & E5 & _ & _ & E).
  destruct (into_memory_Ok rt' wmod O _ deg pts ct test trial output L' D' Lo) as (q' & tcol' & scol' & tcl' & scl' & E1' & E2' & E3' & E4' & E5' & _ & _ & E').
  assert (q' = q) by congruence. assert (tcol' = tcol) by congruence. assert (scol' = scol) by congruence. subst q' tcol' scol'.
  assert (tcl' = tcl) by congruence. assert (scl' = scl) by congruence. subst tcl' scl'.
  eexists. split; [exact E|]. exact E'.
Qed.

Theorem singular_batch_independent rt rt' wmod O o n deg test trial :
  legal_runtime (s_add S) rt -> legal_runtime (s_add S) rt' ->
  singular_setting X wmod O o deg test trial -> 0 < n -> n < wmod ->
  exists m m', assemble_singular_part S X rt wmod O o (shape_of test trial) trial test = Ok m /\
    assemble_singular_part S X rt' wmod O (set_batch_size n o) (shape_of test trial) trial test = Ok m' /\
    triplets m = triplets m' /\ sm_shape m = sm_shape m'.
Proof.
  intros L L' D Hn Hw. pose proof (singular_set_batch wmod O o n deg test trial Hn Hw D) as D'.
  destruct (singular_part_values S X rt wmod O o deg test trial L D) as (st & m & Est & Em & E1 & E2 & E3 & E4).
  destruct (singular_part_values S X rt' wmod O _ deg test trial L' D') as (st' & m' & Est' & Em' & E1' & E2' & E3' & E4').
  assert (Ess : st' = st) by (change (singular_rules (make_rule X O trial test) (set_batch_size n o)) with (singular_rules (make_rule X O trial test) o) in Est'; congruence).
  subst st'. exists m, m'. split; auto. split; auto. unfold triplets. split; congruence.
Qed.

End Dense.
