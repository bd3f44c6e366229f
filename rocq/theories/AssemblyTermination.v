(** * Assembly with batches of no cells *)
From Verif Require Import Base BaseFacts Topology TopologyFacts DofMap SpecDof Colouring SpecColour ColouringResults Process Space SpecSpace
  Options Batch SpecBatch BatchFacts BatchResults Adjacency SpecAdjacency AdjacencyFacts AdjacencyResults
  Scalar Integrand CellPair Operators SpecLocal LocalFacts LocalResults Interleave Assembly SpecAssembly InterleaveFacts AssemblyFacts
  AssemblyRaces AssemblyValues AssemblySingular AssemblyDense.

(** ** Loops that never end *)

Lemma mapM_Hang {A B : Type} (f : A -> res B) l :
  (forall x, In x l -> f x = Hang \/ exists y, f x = Ok y) -> (exists x, In x l /\ f x = Hang) -> mapM f l = Hang.
Proof.
  induction l as [|x l IH]; intros Each (z & Hz & Ez); [destruct Hz|]. cbn [mapM].
  destruct (Each x (or_introl eq_refl)) as [->|(y & Ey)]; [reflexivity|]. rewrite Ey. cbn [bind].
  rewrite IH; [reflexivity|intros; apply Each; now right|]. destruct Hz as [<-|Hz]; [congruence|eauto].
Qed.

Lemma cell_blocks_zero {A} fuel wmod (cp : list (list A)) : 0 < wmod ->
  ((exists c, In c cp /\ c <> []) -> cell_blocks_from fuel wmod 0 cp = Hang) /\
  ((forall c, In c cp -> c = []) -> cell_blocks_from fuel wmod 0 cp = Ok []).
Proof.
  intros Hw. unfold cell_blocks_from.
  set (F := fun ic : nat * list A => b <- block_loop fuel wmod 0 (snd ic) 0 ;; Ok (map (fun x => (fst ic, x)) b)).
  assert (Empty : forall i, F (i, []) = Ok []) by (intros i; unfold F; cbn [snd]; destruct fuel; reflexivity).
  assert (Full : forall i x c, F (i, x :: c) = Hang).
  { intros i x c. unfold F. cbn [snd]. rewrite block_loop_zero by (cbn; lia). reflexivity. }
  split.
  - intros (c & Hc & Nc). rewrite mapM_Hang; [reflexivity| |].
    + intros [i [|x d]] _; [right; eauto|left; auto].
    + apply In_nth_error in Hc. destruct Hc as (i & Hi). exists (i, c). split; [now apply In_enumerate|]. destruct c; [congruence|auto].
  - intros Hc. rewrite (mapM_Ok_all F (fun _ => [])).
    + cbn [bind]. f_equal. generalize (enumerate cp). induction l; cbn; auto.
    + intros [i c] Hin. apply In_enumerate in Hin. apply nth_error_In in Hin. rewrite (Hc c Hin). apply Empty.
Qed.

Lemma test_loop_stuck {A} wmod (tc sc : list A) : 0 < wmod -> forall fuel start, start < length tc -> start < wmod ->
  test_loop fuel wmod 0 tc sc start = Hang.
Proof.
  intros Hw. destruct sc as [|x sc]; [|intros; apply test_loop_zero; auto; discriminate].
  induction fuel as [|fuel IH]; intros start Hs Hm; cbn [test_loop]; destruct (Nat.ltb_spec start (length tc)); auto; try lia.
  unfold batch_end, usize_add. rewrite Nat.add_0_r. destruct (Nat.ltb_spec start wmod); [|lia].
  cbn [bind]. destruct (Nat.ltb_spec start (length tc)); [|lia]. rewrite slice_Ok by lia. cbn [bind length trial_loop Nat.ltb Nat.leb].
  now rewrite IH.
Qed.

Lemma dense_tasks_zero {A} wmod (tc sc : list A) : 0 < wmod ->
  (tc = [] -> dense_tasks wmod 0 tc sc = Ok []) /\ (tc <> [] -> dense_tasks wmod 0 tc sc = Hang).
Proof.
  intros Hw. split; [intros ->; reflexivity|]. intros Ht. apply test_loop_stuck; auto. destruct tc; cbn; [congruence|lia].
Qed.

Section Termination.
Context {T R : Type} (S : scalar T R) (X : externals R).

(** ** The singular part *)

Lemma rules_any_batch (O : operator T R) o n (test trial : fspace T R) types :
  singular_rules (make_rule X O trial test) (set_batch_size n o) types = singular_rules (make_rule X O trial test) o types.
Proof. reflexivity. Qed.

Lemma touch_self g c : wf_grid g -> c < ent_count g 2 -> touch g c c.
Proof.
  intros W Hc. assert (L := wf_sub_length g W c 0 Hc (Nat.le_0_l 2)).
  assert (H := wf_types2_surface g W _ (wf_ctype g W c Hc)).
  destruct (g_sub g c 0) as [|v l] eqn:E.
  - destruct H as [H|H]; rewrite H in L; discriminate.
  - exists v. rewrite E. split; now left.
Qed.

Theorem singular_part_zero rt wmod (O : operator T R) o deg test trial : singular_setting X wmod O o deg test trial ->
  ((exists c, c < ent_count (fs_grid test) 2 /\ g_own (fs_grid test) 2 c = Owned) ->
   assemble_singular_part S X rt wmod O (set_batch_size 0 o) (shape_of test trial) trial test = Hang) /\
  ((forall c, c < ent_count (fs_grid test) 2 -> g_own (fs_grid test) 2 c <> Owned) ->
   exists m, assemble_singular_part S X rt wmod O (set_batch_size 0 o) (shape_of test trial) trial test = Ok m).
Proof.
  intros SS. assert (W := proj1 (member_grid test (sg_test _ _ _ _ _ _ _ SS))).
  destruct (singular_part_blocks S X wmod O o deg test trial (shape_of test trial) SS) as (st & blocks & Est & Eb & Eo & _).
  assert (Hw : 0 < wmod) by (destruct SS; lia).
  unfold assemble_singular_part. replace (equal_grids (fs_grid test) (fs_grid trial)) with true
    by (unfold equal_grids; rewrite (sg_same _ _ _ _ _ _ _ SS); now rewrite Nat.eqb_refl).
  cbn [negb shape_of fst snd].
  rewrite !Nat.eqb_refl. cbn [andb negb]. rewrite rules_any_batch, Est. cbn [bind].
  unfold singular_blocks, make_cell_blocks in *. apply bind_Ok_inv in Eb. destruct Eb as (cp & Ec & _). rewrite Ec.
  cbn [bind set_batch_size o_batch_size].
  destruct (collect_pairs_Ok _ _ _ _ W Ec) as (idx & Hi & ->).
  assert (P := Permutation_rows idx (length (rs_indices st)) (events (fs_grid test))
    (fun p => match p with (t, s) => fun H => proj1 (Hi t s H) end)).
  set (cp := rows_of idx (length (rs_indices st)) (events (fs_grid test))) in *.
  destruct (cell_blocks_zero (Datatypes.S (sum_list (map (@length _) cp))) wmod cp Hw) as (Z1 & Z2). split.
  - intros (c & Hc & Ho).
    assert (Hin : In (c, c) (concat cp)).
    { apply (Permutation_in _ (Permutation_sym P)). apply In_events; auto using touch_self. }
    apply in_concat in Hin. destruct Hin as (row & Hr & Hin). rewrite Z1; [reflexivity|]. exists row. split; auto. intros ->. destruct Hin.
  - intros No. rewrite Z2; [cbn [bind mapM]; eauto|]. intros row Hr. destruct row as [|[t s] row]; auto. exfalso.
    assert (Hin : In (t, s) (events (fs_grid test))).
    { apply (Permutation_in _ P). apply in_concat. exists ((t, s) :: row). split; auto. now left. }
    apply In_events in Hin; auto. apply (No t); tauto.
Qed.

Theorem singular_zero_hangs rt wmod (O : operator T R) o deg test trial : singular_setting X wmod O o deg test trial ->
  (exists c, c < ent_count (fs_grid test) 2 /\ g_own (fs_grid test) 2 c = Owned) ->
  assemble_singular S X rt wmod O (set_batch_size 0 o) trial test = Hang.
Proof.
  intros SS H. unfold assemble_singular. fold (shape_of test trial). now rewrite (proj1 (singular_part_zero rt wmod O o deg test trial SS) H).
Qed.

(** ** The dense matrix *)

Lemma phase_zero wmod (O : operator T R) o shape trial test t s re colours : 0 < wmod ->
  (fst colours = [] -> nonsingular_phase S X wmod O (set_batch_size 0 o) shape trial test t s re colours = Ok []) /\
  (fst colours <> [] -> nonsingular_phase S X wmod O (set_batch_size 0 o) shape trial test t s re colours = Hang).
Proof.
  intros Hw. unfold nonsingular_phase. cbn [set_batch_size o_batch_size].
  destruct (dense_tasks_zero wmod (fst colours) (snd colours) Hw) as (Z1 & Z2). split; intros H.
  - rewrite Z1 by auto. reflexivity.
  - rewrite Z2 by auto. reflexivity.
Qed.

Theorem dense_zero_hangs rt wmod (O : operator T R) o deg pts ct test trial :
  dense_setting X wmod O o deg pts ct test trial -> 0 < ent_count (fs_grid test) 2 -> 0 < ent_count (fs_grid trial) 2 ->
  (forall output, length output = global_size (fs_space test) * global_size (fs_space trial) ->
     assemble_into_memory S X rt wmod O (set_batch_size 0 o) trial test output = Ran Hang) /\
  assemble S X rt wmod O (set_batch_size 0 o) trial test = Hang.
Proof.
  intros D Nt Ns. assert (Hw : 0 < wmod) by (destruct D; lia).
  assert (St := dn_test _ _ _ _ _ _ _ _ _ D). assert (Ss := dn_trial _ _ _ _ _ _ _ _ _ D).
  assert (Tt := dn_test_type _ _ _ _ _ _ _ _ _ D). assert (Ts := dn_trial_type _ _ _ _ _ _ _ _ _ D).
  destruct (dn_simplex _ _ _ _ _ _ _ _ _ D ct (or_introl eq_refl)) as (Deg & q & Eq). unfold get_regular_quadrature_degree in Deg.
  destruct (one_type_classes test ct St Tt) as (tcol & tcl & Et & At & _ & Pt).
  destruct (one_type_classes trial ct Ss Ts) as (scol & scl & Es & As & _ & Ps).
  assert (Into : forall output, length output = global_size (fs_space test) * global_size (fs_space trial) ->
     assemble_into_memory S X rt wmod O (set_batch_size 0 o) trial test output = Ran Hang).
  { intros output Lo. unfold assemble_into_memory. rewrite Lo, Nat.eqb_refl. cbn [negb].
    rewrite (ss_processes _ St), (ss_processes _ Ss). cbn [is_serial Nat.eqb andb negb]. f_equal.
    rewrite Et. cbn [bind]. rewrite Es. cbn [bind].
    unfold nonsingular_phases. rewrite (ss_processes _ St), (ss_processes _ Ss). cbn [is_serial Nat.eqb andb negb fst snd].
    rewrite !Nat.eqb_refl. cbn [andb negb]. rewrite Tt, Ts. cbn [list_prod map app mapM]. unfold nonsingular_types.
    cbn [set_batch_size o_quadrature_degrees]. rewrite Deg. cbn [unwrap bind].
    rewrite (regular_rule_Ok X O test trial ct _ q) by (try (rewrite Tt); try (rewrite Ts); auto using in_eq; apply D).
    cbn [bind]. rewrite At. cbn [unwrap bind]. rewrite As. cbn [unwrap bind].
    assert (exists l, In l tcl /\ l <> []) as (l & Hl & Nl).
    { assert (H : In 0 (concat tcl)) by (apply (Permutation_in _ (Permutation_sym Pt)), in_seq; lia).
      apply in_concat in H. destruct H as (l & Hl & H). exists l. split; auto. intros ->. destruct H. }
    assert (exists l, In l scl) as (k & Hk).
    { assert (H : In 0 (concat scl)) by (apply (Permutation_in _ (Permutation_sym Ps)), in_seq; lia).
      apply in_concat in H. destruct H as (k & Hk & _). eauto. }
    destruct tcl as [|l0 tcl]; [destruct Hl|]. rewrite mapM_Hang; [reflexivity| |].
    - intros [a b] _. destruct a as [|x a].
      + right. eexists. now apply phase_zero.
      + left. apply phase_zero; auto. discriminate.
    - exists (l, k). split; [now apply in_prod_iff|]. now apply phase_zero. }
  split; auto. unfold assemble. rewrite (ss_processes _ St), (ss_processes _ Ss). cbn [is_serial Nat.eqb andb negb].
  rewrite Into; auto. now rewrite repeat_length.
Qed.

End Termination.
