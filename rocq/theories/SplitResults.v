(** * The dense matrix, the singular part and the rest *)
From Coq Require Import Ring_theory Ring.
From Verif Require Import Base BaseFacts Topology TopologyFacts DofMap DofMapFacts SpecDof DofMapResults DofExamples Process Space SpecSpace SpaceResults Options Batch SpecBatch
  Adjacency SpecAdjacency Scalar Integrand CellPair Operators SpecLocal LocalFacts LocalResults Interleave Assembly SpecAssembly
  AssemblyFacts AssemblySingular AssemblyRaces AssemblyDense AssemblyExact AssemblyResults SpecAlgebra AlgebraFacts AlgebraResults
  SpecDistributed DistributedFacts DistributedResults SpecBroken BrokenResults SpecOrder OrderResults.

Section Sum.
Context {T R : Type} (S : scalar T R) (one : T).
Hypothesis RT : ring_theory (s_zero S) one (s_add S) (s_mul S) (s_sub S) (s_neg S) eq.
Add Ring RingT : RT.
Variable X : externals R.

Theorem split_matrix rt wmod O o deg pts ct test trial :
  legal_runtime (s_add S) rt -> dense_setting X wmod O o deg pts ct test trial ->
  exists m s far,
    assemble S X rt wmod O o trial test = Ok m /\
    assemble_singular_part S X rt wmod O o (global_size (fs_space test), global_size (fs_space trial)) trial test = Ok s /\
    (forall t s a b, t < ent_count (fs_grid test) 2 -> s < ent_count (fs_grid trial) 2 ->
      (touching test trial t s -> far t s a b = s_zero S) /\
      (~ touching test trial t s -> regular_value S X O pts test trial t s a b (far t s a b))) /\
    forall i j, i < global_size (fs_space test) -> j < global_size (fs_space trial) ->
      nth_error m (i + global_size (fs_space test) * j) = Some (s_add S (sparse_entry S s i j) (matrix_entry S far test trial i j)).
Proof.
  intros L D. destruct (beyond S one RT X rt wmod O o deg pts ct test trial L D) as (m & s & val & E & Es & Ll & V & H).
  exists m, s, (fun t s a b => if touchb test trial t s then s_zero S else val t s a b). do 2 (split; [assumption|]). split.
  - intros t u a b Ht Hu. assert (K := touchb_spec test trial t u (dn_same _ _ _ _ _ _ _ _ _ D)). split; intros Hto.
    + apply K in Hto. now rewrite Hto.
    + destruct (touchb test trial t u); [exfalso; apply Hto, K; reflexivity|]. destruct (V t u a b Ht Hu) as [(C & _)|(_ & C)]; [contradiction|exact C].
  - intros i j Hi Hj. destruct (nth_error m (i + global_size (fs_space test) * j)) as [x|] eqn:Ex.
    + f_equal. rewrite <- (H i j x Hi Hj Ex). ring.
    + apply nth_error_None in Ex. exfalso. nia.
Qed.
End Sum.

Theorem exact_split_matrix {T R : Type} (S : scalar T R) (X : externals R) rt wmod O o deg pts ct test trial :
  exact S -> legal_runtime (s_add S) rt -> dense_setting X wmod O o deg pts ct test trial ->
  exists m s far,
    assemble S X rt wmod O o trial test = Ok m /\
    assemble_singular_part S X rt wmod O o (global_size (fs_space test), global_size (fs_space trial)) trial test = Ok s /\
    (forall t s a b, t < ent_count (fs_grid test) 2 -> s < ent_count (fs_grid trial) 2 ->
      (touching test trial t s -> far t s a b = s_zero S) /\
      (~ touching test trial t s -> regular_value S X O pts test trial t s a b (far t s a b))) /\
    forall i j, i < global_size (fs_space test) -> j < global_size (fs_space trial) ->
      nth_error m (i + global_size (fs_space test) * j) = Some (s_add S (sparse_entry S s i j) (matrix_entry S far test trial i j)).
Proof. intros ((one & RT) & _). now apply (split_matrix S one RT). Qed.

(** ** Discontinuous functions *)

Section Discontinuous.
Context {T R : Type}.

(** The cell and place of a DOF. *)
Lemma interior_place (fs : fspace T R) c c' a a' i : serial_space fs -> interior_family (g_types (fs_grid fs) 2) (fs_family fs) ->
  c < ent_count (fs_grid fs) 2 -> c' < ent_count (fs_grid fs) 2 ->
  nth_error (dofs_at fs c) a = Some i -> nth_error (dofs_at fs c') a' = Some i -> c = c' /\ a = a'.
Proof.
  intros Sp F Hc Hc' H H'.
  assert (E : c = c').
  { apply (interior_disjoint 0 _ _ _ (ss_grid _ Sp) (ss_family _ Sp) (ss_dofs _ Sp) c c' i F Hc Hc');
      rewrite <- dofs_at_row by auto; eapply nth_error_In; eauto. }
  subst c'. split; [reflexivity|]. destruct (dofs_at_spec fs c Sp Hc) as (_ & _ & Nd & _).
  apply (proj1 (NoDup_nth_error _) Nd); [apply nth_error_Some; congruence|congruence].
Qed.

Lemma single_label (l : list label) k : NoDup l -> (forall x, In x l <-> x = k) -> l = [k].
Proof.
  intros Nd H. destruct l as [|x l]; [exfalso; now apply (proj2 (H k))|].
  assert (x = k) by (apply H; now left). subst x. destruct l as [|y l]; [reflexivity|].
  assert (y = k) by (apply H; right; now left). subst y. inversion Nd; subst. exfalso. apply H2. now left.
Qed.

Variables (S : scalar T R) (X : externals R).

Theorem single_values rt wmod O o deg pts ct test trial :
  legal_runtime (s_add S) rt -> dense_setting X wmod O o deg pts ct test trial ->
  interior_family [ct] (fs_family test) -> interior_family [ct] (fs_family trial) ->
  exists m, assemble S X rt wmod O o trial test = Ok m /\
    length m = global_size (fs_space test) * global_size (fs_space trial) /\
    (forall i j, i < global_size (fs_space test) -> j < global_size (fs_space trial) -> exists t s a b, contributes test trial i j ((t, s), (a, b))) /\
    forall i j t s a b, contributes test trial i j ((t, s), (a, b)) ->
      exists v, pair_value S X O deg pts test trial t s a b v /\
        nth_error m (i + global_size (fs_space test) * j) = Some (s_add S (s_zero S) v).
Proof.
  intros L D F1 F2. assert (St := dn_test _ _ _ _ _ _ _ _ _ D). assert (Ss := dn_trial _ _ _ _ _ _ _ _ _ D).
  rewrite <- (dn_test_type _ _ _ _ _ _ _ _ _ D) in F1. rewrite <- (dn_trial_type _ _ _ _ _ _ _ _ _ D) in F2.
  destruct (ordered_entries ct test trial (dense_order X wmod O o deg pts ct test trial D)) as (ord & Ho & H).
  destruct (H T R S X rt wmod O o deg pts test trial (repeat (s_zero S) (global_size (fs_space test) * global_size (fs_space trial))))
    as (m & val & E & V & Ll & Hm); try apply repeat_length; auto; try (repeat split; fail).
  rewrite assemble_on_zeros in E by (apply ss_processes; assumption). injection E as E.
  exists m. split; [exact E|]. rewrite repeat_length in Ll. split; [exact Ll|]. split.
  - intros i j Hi Hj. rewrite serial_size in Hi, Hj by assumption.
    destruct (dof_in_cell test i St Hi) as (t & a & Ht & Ha). destruct (dof_in_cell trial j Ss Hj) as (s & b & Hs & Hb).
    exists t, s, a, b. repeat split; assumption.
  - intros i j t s a b C. assert (C' := C). destruct C' as (Ht & Hs & Ha & Hb). exists (val t s a b). split; [now apply V|].
    assert (Hi : i < global_size (fs_space test)) by (eapply serial_lt; eauto using nth_error_In).
    assert (Hj : j < global_size (fs_space trial)) by (eapply serial_lt; eauto using nth_error_In).
    rewrite (Hm i j (s_zero S) Hi Hj) by (apply nth_error_repeat; nia). f_equal.
    destruct (Ho i j) as (Nd & Hc). rewrite (single_label (ord i j) ((t, s), (a, b)) Nd); [reflexivity|].
    intros [[t' s'] [a' b']]. rewrite Hc. split; [|now intros [= -> -> -> ->]].
    intros (Ht' & Hs' & Ha' & Hb').
    destruct (interior_place test t' t a' a i St F1 Ht' Ht Ha' Ha) as (-> & ->).
    destruct (interior_place trial s' s b' b j Ss F2 Hs' Hs Hb' Hb) as (-> & ->). reflexivity.
Qed.

Lemma nth_error_Forall2 {A B : Type} (P : A -> B -> Prop) l l' n y : Forall2 P l l' -> nth_error l' n = Some y ->
  exists x, nth_error l n = Some x /\ P x y.
Proof. intros F. revert n. induction F; intros [|n] H0; cbn in *; try discriminate; [injection H0 as <-; eauto|eauto]. Qed.

Theorem single_triplets rt rt' wmod O o deg pts ct test trial :
  legal_runtime (s_add S) rt -> legal_runtime (s_add S) rt' -> dense_setting X wmod O o deg pts ct test trial ->
  interior_family [ct] (fs_family test) -> interior_family [ct] (fs_family trial) ->
  forall shape rows cols data, assemble_singular S X rt' wmod O o trial test = Ok (CsrFromAij shape rows cols data) ->
  exists m, assemble S X rt wmod O o trial test = Ok m /\
    NoDup (combine rows cols) /\ length rows = length data /\ length cols = length data /\
    forall i j v, In ((i, j), v) (combine (combine rows cols) data) ->
      i < global_size (fs_space test) /\ j < global_size (fs_space trial) /\
      nth_error m (i + global_size (fs_space test) * j) = Some (s_add S (s_zero S) v).
Proof.
  intros L L' D F1 F2 shape rows cols data Es.
  destruct (single_values rt wmod O o deg pts ct test trial L D F1 F2) as (m & E & Ll & _ & H).
  assert (Eg : g_id (fs_grid test) = g_id (fs_grid trial)).
  { destruct (Nat.eq_dec (g_id (fs_grid test)) (g_id (fs_grid trial))) as [e|n]; [exact e|].
    destruct (other_grid_no_singular S X rt' wmod O o trial test n) as (C & _). congruence. }
  assert (SS := dense_singular X wmod O o deg pts ct test trial D Eg).
  destruct (singular_part_labels S X rt' wmod O o deg test trial L' SS) as (sp & ks & Em & _ & L1 & L2 & L3 & Nd & Lab & F).
  assert (sm_rows sp = rows /\ sm_cols sp = cols /\ sm_data sp = data) as (R1 & R2 & R3).
  { destruct (singular_threshold S X rt' wmod O o trial test sp Em) as (K1 & K2).
    destruct (existsb (s_large S) (sm_data sp)) eqn:Ex.
    - apply existsb_exists in Ex. rewrite K1 in Es by exact Ex. injection Es as _ <- <- <-. auto.
    - rewrite K2 in Es; [discriminate|]. intros v Hv. destruct (s_large S v) eqn:Ev; [|reflexivity].
      assert (existsb (s_large S) (sm_data sp) = true) by (apply existsb_exists; eauto). congruence. }
  subst rows cols data. exists m. split; [exact E|].
  assert (St := dn_test _ _ _ _ _ _ _ _ _ D). assert (Ss := dn_trial _ _ _ _ _ _ _ _ _ D). assert (Sa := dn_same _ _ _ _ _ _ _ _ _ D Eg).
  rewrite <- (dn_test_type _ _ _ _ _ _ _ _ _ D) in F1. rewrite <- (dn_trial_type _ _ _ _ _ _ _ _ _ D) in F2.
  assert (G : forall n x, nth_error (triplets sp) n = Some x -> exists t s a b, nth_error ks n = Some ((t, s), (a, b)) /\ touching test trial t s /\
    contributes test trial (fst (fst x)) (snd (fst x)) ((t, s), (a, b)) /\ singular_value S X O deg test trial t s a b (snd x)).
  { intros n x Hx. destruct (nth_error_Forall2 _ _ _ n x F Hx) as ([[t s] [a b]] & Hk & i & j & Hi & Hj & Gi & Gj & Hv).
    cbn [fst snd] in *. exists t, s, a, b. split; [exact Hk|]. apply nth_error_In, Lab in Hk. destruct Hk as (Ht & Hs & _ & Hto & _).
    assert (Hs' : s < ent_count (fs_grid trial) 2) by now rewrite <- Sa.
    rewrite (serial_index test i St (serial_dofs_lt test St t i Ht (nth_error_In _ _ Hi))) in Gi.
    rewrite (serial_index trial j Ss (serial_dofs_lt trial Ss s j Hs' (nth_error_In _ _ Hj))) in Gj.
    injection Gi as <-. injection Gj as <-. split; [now split|]. split; [repeat split; assumption|exact Hv]. }
  assert (Lc : length (combine (sm_rows sp) (sm_cols sp)) = length (sm_data sp)) by (rewrite combine_length; lia).
  assert (Em' : combine (sm_rows sp) (sm_cols sp) = map fst (triplets sp)).
  { unfold triplets. clear - Lc. revert Lc. generalize (combine (sm_rows sp) (sm_cols sp)) (sm_data sp).
    intros l l0. revert l0. induction l as [|x l IH]; intros [|y l'] Lc; cbn in *; try discriminate; [reflexivity|]. f_equal. apply IH. congruence. }
  split; [|split; [congruence|split; [congruence|]]].
  - rewrite Em'. apply NoDup_nth_error. intros n n' Hn Ee. rewrite map_length in Hn. rewrite !nth_error_map in Ee.
    destruct (nth_error (triplets sp) n) as [x|] eqn:Ex; [|apply nth_error_None in Ex; lia]. cbn in Ee.
    destruct (nth_error (triplets sp) n') as [x'|] eqn:Ex'; [|discriminate]. cbn in Ee. injection Ee as Ee.
    destruct (G n x Ex) as (t & s & a & b & Hk & _ & (C1 & C2 & C3 & C4) & _).
    destruct (G n' x' Ex') as (t' & s' & a' & b' & Hk' & _ & (C1' & C2' & C3' & C4') & _). rewrite <- Ee in C3', C4'.
    destruct (interior_place test t t' a a' _ St F1 C1 C1' C3 C3') as (-> & ->).
    destruct (interior_place trial s s' b b' _ Ss F2 C2 C2' C4 C4') as (-> & ->).
    apply (proj1 (NoDup_nth_error ks) Nd); [apply nth_error_Some; congruence|congruence].
  - intros i j v Hin. apply In_nth_error in Hin. destruct Hin as (n & Hn). destruct (G n _ Hn) as (t & s & a & b & _ & Hto & C & Hv). cbn [fst snd] in *.
    destruct (H i j t s a b C) as (w & Hw & Ew). destruct C as (Ht & Hs & Ha & Hb).
    split; [eapply serial_lt; eauto using nth_error_In|]. split; [eapply serial_lt; eauto using nth_error_In|].
    rewrite Ew. do 2 f_equal. apply (pair_value_unique S X O deg pts test trial t s a b); [exact Hw|]. left. auto.
Qed.
End Discontinuous.
