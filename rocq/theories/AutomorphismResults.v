(** * Grids that are mapped to themselves: proofs *)
From Coq Require Import Ring_theory.
From Verif Require Import Base BaseFacts Topology TopologyFacts DofMap DofMapFacts SpecDof DofMapResults Process Space SpecSpace
  DofExamples SpaceScript SpaceResults Options Adjacency SpecAdjacency AdjacencyFacts Scalar Integrand CellPair Operators SpecLocal SpecOperators Interleave Assembly SpecAssembly
  AssemblySingular AssemblyDense AssemblyExact AssemblyResults SpecAlgebra AlgebraFacts SpecDistributed DistributedFacts DistributedResults SpecRenumber RenumberResults
  SpecSimilar SimilarResults SpecAutomorphism.

Section Automorphism.
Context {T R : Type} (S : scalar T R) (X : externals R).

Section Setting.
Variables (wmod : nat) (O : operator T R) (o : options) (deg : cell_type -> cell_type -> nat) (pts : cell_type -> nat) (ct : cell_type).
Variables (test trial : fspace T R) (L : nat -> nat -> nat).
Hypothesis D : dense_setting X wmod O o deg pts ct test trial.
Hypothesis Same : fs_grid trial = fs_grid test.
Hypothesis Au : renumbered_grid (fs_grid test) (fs_grid test) L.

Let X' := seen_through L X.

Lemma automorphism_partition : partition 1 (fs_grid test) (fun _ => fs_grid test) (fun _ => L).
Proof. apply renumbered_partition; [exact (ss_grid _ (dn_test _ _ _ _ _ _ _ _ _ D))|exact (ss_owned _ (dn_test _ _ _ _ _ _ _ _ _ D))|exact Au]. Qed.

Lemma automorphism_wf : forall r, r < 1 -> wf_grid (fs_grid test).
Proof. intros r _. exact (ss_grid _ (dn_test _ _ _ _ _ _ _ _ _ D)). Qed.

Lemma automorphism_touching t s : t < ent_count (fs_grid test) 2 -> s < ent_count (fs_grid test) 2 ->
  (touching test trial t s <-> touching test trial (L 2 t) (L 2 s)).
Proof.
  intros Ht Hs. unfold touching. rewrite Same.
  pose proof (part_touch 1 _ _ _ automorphism_partition automorphism_wf 0 t s) as P. cbn beta in P.
  split; intros (E & H); split; auto; apply P; auto.
Qed.

Lemma automorphism_value t s a b v : t < ent_count (fs_grid test) 2 -> s < ent_count (fs_grid test) 2 ->
  pair_value S X' O deg pts test trial t s a b v -> pair_value S X O deg pts test trial (L 2 t) (L 2 s) a b v.
Proof.
  intros Ht Hs [(To & V)|(To & V)].
  - left. split; [now apply (automorphism_touching t s Ht Hs)|]. destruct V as (p & k & d & q & A & K & Dm & Q & E).
    exists p, k, d, q. rewrite !(rg_ctype _ _ _ Au) by auto.
    split; [exact (part_adjacency 1 _ _ _ automorphism_partition automorphism_wf 0 t s p (le_n 1) Ht Hs A)|]. split; [exact K|].
    split; [exact (part_shared 1 _ _ _ automorphism_partition automorphism_wf 0 t s d (le_n 1) Ht Hs Dm)|]. split; [exact Q|]. exact E.
  - right. split; [now rewrite <- (automorphism_touching t s Ht Hs)|]. destruct V as (qt & qs & Q1 & Q2 & E). exists qt, qs. rewrite Same in Q2, E |- *.
    rewrite !(rg_ctype _ _ _ Au) by auto. split; [exact Q1|]. split; [exact Q2|]. exact E.
Qed.

Lemma automorphism_dofs (fs : fspace T R) : serial_space fs -> fs_grid fs = fs_grid test ->
  exists f, renumbering (global_size (fs_space fs)) f /\ forall c, c < ent_count (fs_grid test) 2 -> dofs_at fs c = map f (dofs_at fs (L 2 c)).
Proof.
  intros Sf E.
  destruct (renumbered_dofs (mkExternals R (x_simplex X) (x_duffy X) (fun g t points c => x_geometry X g t points 0)) fs fs L Sf Sf) as (_ & f & Rf & Hf).
  - constructor; try reflexivity. rewrite E. exact Au.
  - exists f. rewrite E in Hf. auto.
Qed.

Lemma automorphism_entry one (RT : ring_theory (s_zero S) one (s_add S) (s_mul S) (s_sub S) (s_neg S) eq) val val' f h i j :
  (forall t s a b, t < ent_count (fs_grid test) 2 -> s < ent_count (fs_grid trial) 2 -> pair_value S X O deg pts test trial t s a b (val t s a b)) ->
  (forall t s a b, t < ent_count (fs_grid test) 2 -> s < ent_count (fs_grid trial) 2 -> pair_value S X' O deg pts test trial t s a b (val' t s a b)) ->
  renumbering (global_size (fs_space test)) f -> renumbering (global_size (fs_space trial)) h ->
  (forall c, c < ent_count (fs_grid test) 2 -> dofs_at test c = map f (dofs_at test (L 2 c))) ->
  (forall c, c < ent_count (fs_grid test) 2 -> dofs_at trial c = map h (dofs_at trial (L 2 c))) ->
  i < global_size (fs_space test) -> j < global_size (fs_space trial) ->
  matrix_entry S val' test trial (f i) (h j) = matrix_entry S val test trial i j.
Proof.
  intros V V' Rf Rh Df Dh Hi Hj. unfold matrix_entry.
  pose proof (dn_test _ _ _ _ _ _ _ _ _ D) as Wt. pose proof (dn_trial _ _ _ _ _ _ _ _ _ D) as Ws.
  pose proof (rg_bijective _ _ _ Au 2 (le_n 2)) as Bj. rewrite Same in *.
  symmetry.
  rewrite <- (total_perm S one RT _ _ _ (renumbering_Permutation _ _ Bj)), total_map. apply total_ext. intros t Ht. apply in_seq in Ht.
  assert (Ht' : t < ent_count (fs_grid test) 2) by lia.
  rewrite <- (total_perm S one RT _ _ _ (renumbering_Permutation _ _ Bj)), total_map. apply total_ext. intros s Hs. apply in_seq in Hs.
  assert (Hs' : s < ent_count (fs_grid test) 2) by lia.
  assert (Lt : L 2 t < ent_count (fs_grid test) 2) by (now apply Bj).
  assert (Ls : L 2 s < ent_count (fs_grid test) 2) by (now apply Bj).
  symmetry. rewrite (Df t Ht'), (Dh s Hs'), !enumerate_map, total_map. apply total_ext. intros [a i'] Ha. rewrite total_map. apply total_ext. intros [b j'] Hb.
  cbn [fst snd].
  assert (Hi' : i' < global_size (fs_space test)).
  { rewrite (serial_size test Wt). apply (serial_dofs_lt test Wt (L 2 t)); auto. apply in_combine_r in Ha. exact Ha. }
  assert (Hj' : j' < global_size (fs_space trial)).
  { rewrite (serial_size trial Ws). apply (serial_dofs_lt trial Ws (L 2 s)); auto; [now rewrite Same|]. apply in_combine_r in Hb. exact Hb. }
  assert (E1 : (f i' =? f i) = (i' =? i)).
  { destruct (Nat.eqb_spec i' i) as [->|N]; [apply Nat.eqb_refl|]. apply Nat.eqb_neq. intros E. apply N. now apply (proj1 (proj2 Rf)). }
  assert (E2 : (h j' =? h j) = (j' =? j)).
  { destruct (Nat.eqb_spec j' j) as [->|N]; [apply Nat.eqb_refl|]. apply Nat.eqb_neq. intros E. apply N. now apply (proj1 (proj2 Rh)). }
  rewrite E1, E2. destruct (_ && _); [|reflexivity].
  eapply pair_value_unique; [|apply V; auto]. apply automorphism_value; auto.
Qed.

(** A matrix that does not change when the cells are moved. *)
Lemma automorphism_matrix rt rt' m : exact S -> legal_runtime (s_add S) rt -> legal_runtime (s_add S) rt' ->
  dense_setting X' wmod O o deg pts ct test trial ->
  assemble S X rt wmod O o trial test = Ok m -> assemble S X' rt' wmod O o trial test = Ok m ->
  exists f h,
    renumbering (global_size (fs_space test)) f /\ renumbering (global_size (fs_space trial)) h /\
    (forall c, c < ent_count (fs_grid test) 2 -> dofs_at test c = map f (dofs_at test (L 2 c)) /\ dofs_at trial c = map h (dofs_at trial (L 2 c))) /\
    forall i j, i < global_size (fs_space test) -> j < global_size (fs_space trial) ->
      exists x, entry_at (global_size (fs_space test)) m i j = Some x /\ entry_at (global_size (fs_space test)) m (f i) (h j) = Some x.
Proof.
  intros ((one & RT) & _) Lr Lr' D' Em Em'.
  destruct (assembled S one RT X rt wmod O o deg pts ct test trial Lr D) as (m0 & val & E & Ln & V & H).
  destruct (assembled S one RT X' rt' wmod O o deg pts ct test trial Lr' D') as (m1 & val' & E' & Ln' & V' & H').
  rewrite Em in E. rewrite Em' in E'. injection E as <-. injection E' as <-.
  destruct (automorphism_dofs test (dn_test _ _ _ _ _ _ _ _ _ D) eq_refl) as (f & Rf & Df).
  destruct (automorphism_dofs trial (dn_trial _ _ _ _ _ _ _ _ _ D) Same) as (h & Rh & Dh).
  exists f, h. split; auto. split; auto. split; [auto|]. intros i j Hi Hj. unfold entry_at. eexists. split; [now apply H|].
  rewrite H' by (apply Rf || apply Rh; auto). f_equal. eapply automorphism_entry; eauto.
Qed.
End Setting.

Lemma seen_through_similar move A u g L : moved_cells S move A u g X L -> similar_externals S move A u u g X (seen_through L X).
Proof. intros H. constructor; [reflexivity|reflexivity|]. intros t points c Hc. now apply H. Qed.

Lemma seen_through_setting wmod (O : operator T R) o deg pts ct test trial L : dense_setting X wmod O o deg pts ct test trial ->
  dense_setting (seen_through L X) wmod O o deg pts ct test trial.
Proof. intros [A1 A2 A3 A4 A5 A6 A7 A8 A9 B1 B2 B3 B4 B5 B6 B7 B8]. constructor; auto. destruct B2 as [P1 P2]. constructor; assumption. Qed.

Theorem laplace_automorphism move A u (G : @green T R) kd rt wmod o deg pts ct (test trial : fspace T R) L :
  exact S -> exact_cast S -> orthogonal S A -> (forall x, s_mul S u x = x) -> similar_green S move A u u G G ->
  legal_runtime (s_add S) rt -> dense_setting X wmod (laplace_operator kd G) o deg pts ct test trial ->
  fs_grid trial = fs_grid test -> renumbered_grid (fs_grid test) (fs_grid test) L -> moved_cells S move A u (fs_grid test) X L ->
  exists m f h, assemble S X rt wmod (laplace_operator kd G) o trial test = Ok m /\
    renumbering (global_size (fs_space test)) f /\ renumbering (global_size (fs_space trial)) h /\
    (forall c, c < ent_count (fs_grid test) 2 -> dofs_at test c = map f (dofs_at test (L 2 c)) /\ dofs_at trial c = map h (dofs_at trial (L 2 c))) /\
    forall i j, i < global_size (fs_space test) -> j < global_size (fs_space trial) ->
      exists x, entry_at (global_size (fs_space test)) m i j = Some x /\ entry_at (global_size (fs_space test)) m (f i) (h j) = Some x.
Proof.
  intros Ex Hc Or Hu Gr Lr D Same Au Mv. pose proof (seen_through_similar _ _ _ _ _ Mv) as Sx.
  assert (Sx' : similar_externals S move A u u (fs_grid trial) X (seen_through L X)) by (now rewrite Same).
  destruct (laplace_rigid S move A u G G kd X (seen_through L X) rt rt wmod o deg pts ct test trial Ex Hc Or Hu Gr Lr Lr Sx Sx' D) as (m & E & E').
  destruct (automorphism_matrix wmod _ o deg pts ct test trial L D Same Au rt rt m Ex Lr Lr (seen_through_setting _ _ _ _ _ _ _ _ _ D) E E') as (f & h & H).
  exists m, f, h. auto.
Qed.

Theorem helmholtz_automorphism move A u (G : R -> @green T R) k kd rt wmod o deg pts ct (test trial : fspace T R) L :
  exact S -> exact_cast S -> orthogonal S A -> (forall x, s_mul S u x = x) -> similar_green S move A u u (G k) (G k) ->
  legal_runtime (s_add S) rt -> dense_setting X wmod (helmholtz_operator S kd G k) o deg pts ct test trial ->
  fs_grid trial = fs_grid test -> renumbered_grid (fs_grid test) (fs_grid test) L -> moved_cells S move A u (fs_grid test) X L ->
  exists m f h, assemble S X rt wmod (helmholtz_operator S kd G k) o trial test = Ok m /\
    renumbering (global_size (fs_space test)) f /\ renumbering (global_size (fs_space trial)) h /\
    (forall c, c < ent_count (fs_grid test) 2 -> dofs_at test c = map f (dofs_at test (L 2 c)) /\ dofs_at trial c = map h (dofs_at trial (L 2 c))) /\
    forall i j, i < global_size (fs_space test) -> j < global_size (fs_space trial) ->
      exists x, entry_at (global_size (fs_space test)) m i j = Some x /\ entry_at (global_size (fs_space test)) m (f i) (h j) = Some x.
Proof.
  intros Ex Hc Or Hu Gr Lr D Same Au Mv. pose proof (seen_through_similar _ _ _ _ _ Mv) as Sx.
  assert (Sx' : similar_externals S move A u u (fs_grid trial) X (seen_through L X)) by (now rewrite Same).
  destruct (helmholtz_rigid S move A u G G k kd X (seen_through L X) rt rt wmod o deg pts ct test trial Ex Hc Or Hu Gr Lr Lr Sx Sx' D) as (m & E & E').
  destruct (automorphism_matrix wmod _ o deg pts ct test trial L D Same Au rt rt m Ex Lr Lr (seen_through_setting _ _ _ _ _ _ _ _ _ D) E E') as (f & h & H).
  exists m, f, h. auto.
Qed.

Lemma images_from_numbers (test trial : fspace T R) m L f h : serial_space test -> serial_space trial -> fs_grid trial = fs_grid test ->
  renumbering (ent_count (fs_grid test) 2) (L 2) ->
  (forall c, c < ent_count (fs_grid test) 2 -> dofs_at test c = map f (dofs_at test (L 2 c)) /\ dofs_at trial c = map h (dofs_at trial (L 2 c))) ->
  (forall i j, i < global_size (fs_space test) -> j < global_size (fs_space trial) ->
      exists x, entry_at (global_size (fs_space test)) m i j = Some x /\ entry_at (global_size (fs_space test)) m (f i) (h j) = Some x) ->
  same_on_images test trial m (L 2).
Proof.
  intros St Ss Same Bj Df H c c' a a' i j i' j' Hc Hc' Hi Hj Hi' Hj'. rewrite Same in Hc'.
  rewrite (proj1 (Df c Hc)), nth_error_map, Hi' in Hi. rewrite (proj2 (Df c' Hc')), nth_error_map, Hj' in Hj. cbn [option_map] in Hi, Hj.
  injection Hi as <-. injection Hj as <-.
  destruct (H i' j') as (x & E1 & E2).
  - rewrite (serial_size test St). apply (serial_dofs_lt test St (L 2 c)); [now apply Bj|]. eapply nth_error_In; eauto.
  - rewrite (serial_size trial Ss). apply (serial_dofs_lt trial Ss (L 2 c')); [rewrite Same; now apply Bj|]. eapply nth_error_In; eauto.
  - exists x. auto.
Qed.
End Automorphism.
