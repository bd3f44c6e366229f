(** * Constant kernels: the singular part, and screens *)
From Coq Require Import Ring_theory Ring Permutation.
From Verif Require Import Base BaseFacts Topology TopologyFacts DofMap DofMapFacts SpecDof DofMapResults Process Space SpecSpace Options SpecOptions
  Adjacency SpecAdjacency AdjacencyFacts Scalar Integrand CellPair Operators SpecLocal SpecOperators LocalFacts LocalResults Interleave Assembly SpecAssembly
  AssemblyFacts AssemblySingular AssemblyDense AssemblyExact AssemblyResults SpecAlgebra AlgebraFacts AlgebraResults
  SpecBroken BrokenResults SpecGalerkin GalerkinResults SpecMeasure MeasureResults SpecShapeSpaces ShapeSpacesResults SpecShare.

Local Open Scope nat_scope.

Section Near.
Context {T R : Type} (S : scalar T R) (one : T) (RT : ring_theory (s_zero S) one (s_add S) (s_mul S) (s_sub S) (s_neg S) eq).
Context (inv : T -> T) (Hdiv : forall a b, s_div S a b = s_mul S a (inv b)) (Ec : exact_cast S).
Context (X : externals R).
Add Ring scalar_ring : RT.
Local Notation "a +! b" := (s_add S a b) (at level 50, left associativity).
Local Notation "a *! b" := (s_mul S a b) (at level 40, left associativity).

Lemma pairs_total (test trial : fspace T R) l (f : nat -> nat -> T) : same_object test trial -> touching_pairs test trial l ->
  total S (seq 0 (ent_count (fs_grid test) 2)) (fun t => total S (seq 0 (ent_count (fs_grid trial) 2)) (fun s => if touchb test trial t s then f t s else s_zero S)) =
  total S l (fun p => f (fst p) (snd p)).
Proof.
  intros Sa (Nd & Hl).
  rewrite (total_perm S one RT l (filter (fun p => touchb test trial (fst p) (snd p)) (list_prod (seq 0 (ent_count (fs_grid test) 2)) (seq 0 (ent_count (fs_grid trial) 2))))).
  - rewrite (total_filter S one RT), (total_list_prod S one RT). reflexivity.
  - apply NoDup_Permutation; [exact Nd|apply NoDup_filter, NoDup_list_prod; apply seq_NoDup|].
    intros [t s]. rewrite Hl, filter_In, in_prod_iff, !in_seq. cbn [fst snd]. rewrite touchb_spec by auto. intuition lia.
Qed.

Theorem near_measured rt wmod (O : operator T R) o deg pts ct (test trial : fspace T R) mu k det det' n n' :
  legal_runtime (s_add S) rt -> dense_setting X wmod O o deg pts ct test trial ->
  adds_to_one S one test -> adds_to_one S one trial -> flat_faces S X (fs_grid test) ct det n -> flat_faces S X (fs_grid trial) ct det' n' ->
  full_weights S X ct deg pts mu -> constant_kernel O k ->
  exists m, assemble_singular_part S X rt wmod O o (shape_of test trial) trial test = Ok m /\
    forall u w U W l, piecewise test u U -> piecewise trial w W -> touching_pairs test trial l ->
      total S (seq 0 (global_size (fs_space test))) (fun i => total S (seq 0 (global_size (fs_space trial))) (fun j => u i *! sparse_entry S m i j *! w j)) =
      total S l (fun p => U (fst p) *! measure S O k (mu *! det (fst p)) (mu *! det' (snd p)) (n (fst p)) (n' (snd p)) *! W (snd p)).
Proof.
  intros L D At As Ft Fs Fw K.
  destruct (near_entries S one RT X rt wmod O o deg pts ct test trial L D) as (m & val & E & V & H).
  exists m. split; [exact E|]. intros u w U W l Pu Pw Pl.
  pose proof (dn_test _ _ _ _ _ _ _ _ _ D) as St. pose proof (dn_trial _ _ _ _ _ _ _ _ _ D) as Ss. pose proof (dn_same _ _ _ _ _ _ _ _ _ D) as Sa.
  assert (Cov : forall (fs : fspace T R) c, serial_space fs -> adds_to_one S one fs -> c < ent_count (fs_grid fs) 2 -> covers S one fs c).
  { intros fs c Sf Af Hc points p. rewrite (dofs_at_dim fs c Sf Hc). apply Af. apply wf_ctype; [apply Sf|auto]. }
  assert (Ty : forall (fs : fspace T R) c, serial_space fs -> g_types (fs_grid fs) 2 = [ct] -> c < ent_count (fs_grid fs) 2 -> g_ctype (fs_grid fs) c = ct).
  { intros fs c Sf Ef Hc. pose proof (wf_ctype _ (ss_grid _ Sf) c Hc) as I. rewrite Ef in I. now destruct I as [->|[]]. }
  rewrite <- (pairs_total test trial l (fun t s => U t *! measure S O k (mu *! det t) (mu *! det' s) (n t) (n' s) *! W s) Sa Pl).
  transitivity (total S (seq 0 (global_size (fs_space test))) (fun i => total S (seq 0 (global_size (fs_space trial))) (fun j =>
    u i *! matrix_entry S (fun t s a b => if touchb test trial t s then val t s a b else s_zero S) test trial i j *! w j))).
  { apply total_ext. intros i _. apply total_ext. intros j _. unfold sparse_entry. now rewrite H. }
  rewrite (weighted_sum S one RT); [|intros; now apply (serial_lt test St t)|intros; now apply (serial_lt trial Ss s)].
  apply total_ext. intros t Ht. apply total_ext. intros s Hs. apply in_seq in Ht, Hs.
  destruct (touchb test trial t s).
  - rewrite <- (cell_sum S one RT inv Hdiv Ec X O deg pts ct test trial mu k det det' n n' (dn_proper _ _ _ _ _ _ _ _ _ D) Sa
      (fun c => Ty test c St (dn_test_type _ _ _ _ _ _ _ _ _ D)) (fun c => Ty trial c Ss (dn_trial_type _ _ _ _ _ _ _ _ _ D)) Ft Fs Fw K t s (val t s)); try lia.
    + rewrite <- (total_mul S one RT), <- (total_mul_r S one RT). rewrite <- (total_enumerate S (dofs_at test t)). apply total_ext. intros [a i] Ha. cbn [fst snd].
      rewrite <- (total_mul S one RT), <- (total_mul_r S one RT). rewrite <- (total_enumerate S (dofs_at trial s)). apply total_ext. intros [b j] Hb. cbn [fst snd].
      apply In_enumerate in Ha, Hb. rewrite (Pu t i), (Pw s j); try lia; try (eapply nth_error_In; eauto). reflexivity.
    + intros a b. apply V; lia.
    + apply Cov; auto. lia.
    + apply Cov; auto. lia.
  - apply (total_zero S one RT). intros ai _. apply (total_zero S one RT). intros bj _. ring.
Qed.

Lemma pairs_exist (test trial : fspace T R) : same_object test trial -> exists l, touching_pairs test trial l.
Proof.
  intros Sa. exists (filter (fun p => touchb test trial (fst p) (snd p)) (list_prod (seq 0 (ent_count (fs_grid test) 2)) (seq 0 (ent_count (fs_grid trial) 2)))).
  split; [apply NoDup_filter, NoDup_list_prod; apply seq_NoDup|].
  intros t s. rewrite filter_In, in_prod_iff, !in_seq. cbn [fst snd]. rewrite touchb_spec by auto. intuition lia.
Qed.

(** The entries for the constants on the cells. *)
Theorem near_measured_entries rt wmod (O : operator T R) o deg pts ct (test trial : fspace T R) mu k det det' n n' :
  legal_runtime (s_add S) rt -> dense_setting X wmod O o deg pts ct test trial ->
  constants S one test -> constants S one trial ->
  interior_family (g_types (fs_grid test) 2) (fs_family test) -> interior_family (g_types (fs_grid trial) 2) (fs_family trial) ->
  flat_faces S X (fs_grid test) ct det n -> flat_faces S X (fs_grid trial) ct det' n' ->
  full_weights S X ct deg pts mu -> constant_kernel O k ->
  exists m, assemble_singular_part S X rt wmod O o (shape_of test trial) trial test = Ok m /\
    forall t s i j, t < ent_count (fs_grid test) 2 -> s < ent_count (fs_grid trial) 2 -> In i (dofs_at test t) -> In j (dofs_at trial s) ->
      (touching test trial t s -> sparse_entry S m i j = measure S O k (mu *! det t) (mu *! det' s) (n t) (n' s)) /\
      (~ touching test trial t s -> sparse_entry S m i j = s_zero S).
Proof.
  intros L D Ct Cs It Is Ft Fs Fw K.
  destruct (near_measured rt wmod O o deg pts ct test trial mu k det det' n n' L D (constants_add_to_one S one RT _ Ct) (constants_add_to_one S one RT _ Cs) Ft Fs Fw K) as (m & E & F).
  pose proof (dn_test _ _ _ _ _ _ _ _ _ D) as St. pose proof (dn_trial _ _ _ _ _ _ _ _ _ D) as Ss. pose proof (dn_same _ _ _ _ _ _ _ _ _ D) as Sa.
  exists m. split; [exact E|]. intros t s i j Ht Hs Hi Hj.
  assert (Li : i < global_size (fs_space test)) by now apply (serial_lt test St t). assert (Lj : j < global_size (fs_space trial)) by now apply (serial_lt trial Ss s).
  destruct (pairs_exist test trial Sa) as (l & Pl).
  specialize (F _ _ _ _ l (indicator_piecewise S one test t i St It Ct Ht Hi) (indicator_piecewise S one trial s j Ss Is Cs Hs Hj) Pl). cbv beta in F.
  rewrite (total_indicator S one RT _ _ i j (sparse_entry S m) Li Lj) in F.
  rewrite <- (pairs_total test trial l (fun t' s' => (if t =? t' then one else s_zero S) *! measure S O k (mu *! det t') (mu *! det' s') (n t') (n' s') *! (if s =? s' then one else s_zero S)) Sa Pl) in F.
  rewrite (total_ext S _ _ (fun a => total S (seq 0 (ent_count (fs_grid trial) 2)) (fun b => (if t =? a then one else s_zero S) *!
    (if touchb test trial a b then measure S O k (mu *! det a) (mu *! det' b) (n a) (n' b) else s_zero S) *! (if s =? b then one else s_zero S)))) in F.
  - rewrite (total_indicator S one RT _ _ t s (fun t s => if touchb test trial t s then measure S O k (mu *! det t) (mu *! det' s) (n t) (n' s) else s_zero S)) in F by auto.
    rewrite F. pose proof (touchb_spec test trial t s Sa) as B. destruct (touchb test trial t s); split; intros Q; auto; exfalso; [apply Q|apply B in Q; discriminate]. now apply B.
  - intros a _. apply total_ext. intros b _. destruct (touchb test trial a b); ring.
Qed.
End Near.

Theorem exact_near_measured : forall (T R : Type) (S : scalar T R) (X : externals R) rt wmod (O : operator T R) o deg pts ct (test trial : fspace T R) one mu k det det' n n',
  exact S -> exact_cast S -> (forall x, s_mul S one x = x) -> legal_runtime (s_add S) rt -> dense_setting X wmod O o deg pts ct test trial ->
  adds_to_one S one test -> adds_to_one S one trial -> flat_faces S X (fs_grid test) ct det n -> flat_faces S X (fs_grid trial) ct det' n' ->
  full_weights S X ct deg pts mu -> constant_kernel O k ->
  exists m, assemble_singular_part S X rt wmod O o (global_size (fs_space test), global_size (fs_space trial)) trial test = Ok m /\
    forall u w U W l, piecewise test u U -> piecewise trial w W -> touching_pairs test trial l ->
      total S (seq 0 (global_size (fs_space test))) (fun i => total S (seq 0 (global_size (fs_space trial))) (fun j => s_mul S (s_mul S (u i) (sparse_entry S m i j)) (w j))) =
      total S l (fun p => s_mul S (s_mul S (U (fst p)) (measure S O k (s_mul S mu (det (fst p))) (s_mul S mu (det' (snd p))) (n (fst p)) (n' (snd p)))) (W (snd p))).
Proof.
  intros T R S X rt wmod O o deg pts ct test trial one mu k det det' n n' ((x & RT) & (inv & Hdiv)) Ec One.
  rewrite (unit_unique S one x RT One). exact (near_measured S x RT inv Hdiv Ec X rt wmod O o deg pts ct test trial mu k det det' n n').
Qed.

Theorem exact_near_entries : forall (T R : Type) (S : scalar T R) (X : externals R) rt wmod (O : operator T R) o deg pts ct (test trial : fspace T R) one mu k det det' n n',
  exact S -> exact_cast S -> (forall x, s_mul S one x = x) -> legal_runtime (s_add S) rt -> dense_setting X wmod O o deg pts ct test trial ->
  constants S one test -> constants S one trial ->
  interior_family (g_types (fs_grid test) 2) (fs_family test) -> interior_family (g_types (fs_grid trial) 2) (fs_family trial) ->
  flat_faces S X (fs_grid test) ct det n -> flat_faces S X (fs_grid trial) ct det' n' ->
  full_weights S X ct deg pts mu -> constant_kernel O k ->
  exists m, assemble_singular_part S X rt wmod O o (global_size (fs_space test), global_size (fs_space trial)) trial test = Ok m /\
    forall t s i j, t < ent_count (fs_grid test) 2 -> s < ent_count (fs_grid trial) 2 -> In i (dofs_at test t) -> In j (dofs_at trial s) ->
      (touching test trial t s -> sparse_entry S m i j = measure S O k (s_mul S mu (det t)) (s_mul S mu (det' s)) (n t) (n' s)) /\
      (~ touching test trial t s -> sparse_entry S m i j = s_zero S).
Proof.
  intros T R S X rt wmod O o deg pts ct test trial one mu k det det' n n' ((x & RT) & (inv & Hdiv)) Ec One.
  rewrite (unit_unique S one x RT One). exact (near_measured_entries S x RT inv Hdiv Ec X rt wmod O o deg pts ct test trial mu k det det' n n').
Qed.
