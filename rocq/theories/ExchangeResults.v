(** * Matrices and their transposes *)
From Coq Require Import Ring.
From Verif Require Import Base BaseFacts Topology TopologyFacts DofMap SpecDof Process Space SpecSpace Options
  Adjacency SpecAdjacency AdjacencyFacts AdjacencyResults Scalar Integrand CellPair Operators SpecLocal LocalResults Interleave Assembly SpecAssembly
  AssemblyFacts AssemblyRaces AssemblyValues AssemblySingular AssemblyDense AssemblyExact AssemblyResults SpecAlgebra AlgebraFacts AlgebraResults SpecExchange.

(** ** Common vertices *)

Lemma coincide_swap g t s i j : coincide g t s i j <-> coincide g s t j i.
Proof. split; intros (v & A & B); exists v; auto. Qed.

Lemma adjacency_NoDup g t s p : adjacency g t s p -> NoDup p.
Proof.
  intros (_ & H). induction H as [|x l H IH F]; constructor; auto. intros C. rewrite Forall_forall in F. apply F in C. lia.
Qed.

Lemma adjacency_swap g t s p p' : adjacency g t s p -> adjacency g s t p' -> Permutation p' (map (fun x => (snd x, fst x)) p).
Proof.
  intros A A'. apply NoDup_Permutation.
  - eapply adjacency_NoDup; eauto.
  - apply NoDup_map_inj_in; [|eapply adjacency_NoDup; eauto]. intros [a b] [c d] _ _ E. cbn in E. congruence.
  - intros [i j]. rewrite in_map_iff. split.
    + intros H. exists (j, i). split; [reflexivity|]. apply A, coincide_swap. now apply A'.
    + intros ([a b] & E & H). cbn in E. injection E as <- <-. apply A', coincide_swap. now apply A.
Qed.

Lemma shared_is_dimension g t s p d : wf_grid g -> conforming g -> t < ent_count g 2 -> s < ent_count g 2 -> touch g t s -> adjacency g t s p ->
  shared_dimension g t s d -> d = connectivity_dimension p.
Proof.
  intros W C Ht Hs To A D. destruct (duffy_choice (fun _ d' _ _ => Some d') g t s p 0 W C Ht Hs To A) as (k & d' & K & D' & E).
  assert (d = d') by (eapply shared_dimension_unique; eauto). subst d'. cbn [unwrap] in E.
  unfold get_singular_quadrature_rule in E. destruct p; [discriminate|].
  destruct (g_ctype g t), (g_ctype g s); try discriminate; cbn [unwrap] in E; congruence.
Qed.

Section Exchange.
Context {T R : Type} (S : scalar T R) (one : T) (RT : ring_theory (s_zero S) one (s_add S) (s_mul S) (s_sub S) (s_neg S) eq).
Context (HC : forall a b, s_cast S (r_mul S a b) = s_mul S (s_cast S a) (s_cast S b)).
Context (X : externals R).
Add Ring scalar_ring : RT.
Local Notation "a *! b" := (s_mul S a b) (at level 40, left associativity).

(** ** Values *)

Lemma integrand_same f k k' phi phi' psi psi' (x x' y y' : cell_map R) p p' q q' :
  (forall i, k i = k' i) -> (forall d, phi d = phi' d) -> (forall d, psi d = psi' d) ->
  (forall i, cm_normal x p i = cm_normal x' p' i) -> (forall i, cm_jacobian x p i = cm_jacobian x' p' i) -> cm_jdet x p = cm_jdet x' p' ->
  (forall i, cm_normal y q i = cm_normal y' q' i) -> (forall i, cm_jacobian y q i = cm_jacobian y' q' i) -> cm_jdet y q = cm_jdet y' q' ->
  integrand_value S f k phi psi x p y q = integrand_value S f k' phi' psi' x' p' y' q'.
Proof.
  intros K F F' N J D N' J' D'. induction f; cbn [integrand_value]; unfold dot, curl, normal, jdet; rewrite ?K, ?F, ?F', ?N, ?J, ?D, ?N', ?J', ?D'; congruence.
Qed.

Lemma total_by_order l l' (f g : nat * R -> T) order : Permutation order (seq 0 (length l)) -> length l' = length l ->
  (forall p k w w', nth_error order p = Some k -> nth_error l' p = Some w' -> nth_error l k = Some w -> f (p, w') = g (k, w)) ->
  (forall p k, nth_error order p = Some k -> nth_error l' p = nth_error l k) ->
  total S (enumerate l') f = total S (enumerate l) g.
Proof.
  intros P L H E. destruct l as [|w0 l0] eqn:El. { destruct l'; [reflexivity|discriminate]. } rewrite <- El in *. clear l0 El.
  assert (A : forall (m : list R) h, total S (enumerate m) h = total S (seq 0 (length m)) (fun k => h (k, nth k m w0))).
  { intros m h. rewrite <- (total_enumerate S m (fun k => h (k, nth k m w0))). apply total_ext. intros [k w] Hk. cbn [fst].
    apply In_enumerate in Hk. cbn in Hk. now rewrite (nth_error_nth _ _ w0 Hk). }
  rewrite !A, L. rewrite <- (total_perm S one RT _ _ (fun k => g (k, nth k l w0)) P).
  assert (Lo : length order = length l) by (rewrite (Permutation_length P); apply seq_length).
  rewrite <- Lo. clear A.
  assert (B : order = map (fun p => nth p order 0) (seq 0 (length order))).
  { clear. apply nth_ext with (d := 0) (d' := nth 0 order 0); [now rewrite map_length, seq_length|].
    intros n Hn. rewrite (map_nth (fun p => nth p order 0) (seq 0 (length order)) 0 n), seq_nth; auto. }
  etransitivity; [|exact (f_equal (fun m => total S m (fun k => g (k, nth k l w0))) (eq_sym B))]. rewrite (total_map S). apply total_ext. intros p Hp. apply in_seq in Hp.
  destruct (nth_error order p) as [k|] eqn:Ek; [|apply nth_error_None in Ek; lia]. rewrite (nth_error_nth _ _ 0 Ek).
  assert (Kl : k < length l).
  { assert (I : In k (seq 0 (length l))) by (eapply Permutation_in; [exact P|]; eapply nth_error_In; eauto). apply in_seq in I. lia. }
  apply H; auto.
  - apply nth_error_nth'. lia.
  - apply nth_error_nth'. lia.
Qed.

Lemma pairwise_exchanged f f' (G : @green T R) (test trial : fspace T R) g q q' ct cs t s a b :
  pointwise_geometry X g -> pointwise_basis test -> pointwise_basis trial -> exchanged q q' ->
  (forall (x y : cell_map R) phi psi p p', integrand_value S f (fun i => G i (position x p) (position y p')) phi psi x p y p' =
     integrand_value S f' (fun i => G i (position y p') (position x p)) psi phi y p' x p) ->
  pairwise_entry S f G (x_geometry X g ct (pq_test q) t) (x_geometry X g cs (pq_trial q) s)
    (fun d p i => fs_basis test ct (pq_test q) d p i 0) (fun d p i => fs_basis trial cs (pq_trial q) d p i 0) (pq_weights q) a b =
  pairwise_entry S f' G (x_geometry X g cs (pq_test q') s) (x_geometry X g ct (pq_trial q') t)
    (fun d p i => fs_basis trial cs (pq_test q') d p i 0) (fun d p i => fs_basis test ct (pq_trial q') d p i 0) (pq_weights q') b a.
Proof.
  intros PG PT PS (order & P & L & H) HI. rewrite !(pairwise_total S one RT). symmetry. apply (total_by_order _ _ _ _ order P L).
  - intros p k w w' Ek Ew' Ew. destruct (H p k Ek) as (A & B & C). assert (w' = w) by congruence. subst w'.
    unfold pairwise_term. cbn [fst snd]. rewrite HI.
    destruct (PG cs _ _ s _ _ A) as (A1 & A2 & A3 & A4). destruct (PG ct _ _ t _ _ B) as (B1 & B2 & B3 & B4).
    rewrite A4, B4, !HC.
    rewrite (integrand_same f' _ (fun i => G i (position (x_geometry X g cs (pq_trial q) s) k) (position (x_geometry X g ct (pq_test q) t) k))
      _ (fun d => fs_basis trial cs (pq_trial q) d k b 0) _ (fun d => fs_basis test ct (pq_test q) d k a 0)
      _ (x_geometry X g cs (pq_trial q) s) _ (x_geometry X g ct (pq_test q) t) _ k _ k); auto.
    + ring.
    + intros i. unfold position. now rewrite !A1, !B1.
  - intros p k Ek. apply (H p k Ek).
Qed.

Lemma singular_exchanged (O O' : operator T R) deg (test trial : fspace T R) t s a b v v' : same_object test trial ->
  wf_grid (fs_grid test) -> conforming (fs_grid test) -> t < ent_count (fs_grid test) 2 -> s < ent_count (fs_grid test) 2 ->
  touching test trial t s -> exchange_setting X deg test trial -> op_kernel O' = op_kernel O ->
  (forall (x y : cell_map R) phi psi p p', integrand_value S (op_integrand O) (fun i => kn_value (op_kernel O) i (position x p) (position y p')) phi psi x p y p' =
     integrand_value S (op_integrand O') (fun i => kn_value (op_kernel O) i (position y p') (position x p)) psi phi y p' x p) ->
  singular_value S X O deg test trial t s a b v -> singular_value S X O' deg trial test s t b a v' -> v = v'.
Proof.
  intros SO W C Ht Hs (Eid & To) [ER EG ET ES] EK HI (p & kind & d & q & A1 & A2 & A3 & A4 & ->) (p' & kind' & d' & q' & B1 & B2 & B3 & B4 & ->).
  assert (Eg := SO Eid). rewrite <- Eg in B1, B2, B3, B4. rewrite <- Eg, EK.
  assert (To' : touch (fs_grid test) s t) by (destruct To as (u & U1 & U2); exists u; auto).
  assert (d = connectivity_dimension p) by now apply (shared_is_dimension (fs_grid test) t s).
  assert (d' = connectivity_dimension p') by now apply (shared_is_dimension (fs_grid test) s t).
  subst d d'. apply pairwise_exchanged; auto.
  apply (ER (g_ctype (fs_grid test) t) (g_ctype (fs_grid test) s) kind kind' p p'); auto.
  - now apply (wf_ctype _ W).
  - now apply (wf_ctype _ W).
  - now apply adjacency_possible.
  - now apply adjacency_possible.
  - eapply adjacency_swap; eauto.
Qed.

(** ** Matrices *)

Lemma exchanged_near rt wmod O O' o deg pts ct (test trial : fspace T R) :
  legal_runtime (s_add S) rt -> dense_setting X wmod O o deg pts ct test trial -> fitting O' ->
  (g_id (fs_grid test) = g_id (fs_grid trial) -> exchange_setting X deg test trial) -> op_kernel O' = op_kernel O ->
  (forall (x y : cell_map R) phi psi p p', integrand_value S (op_integrand O) (fun i => kn_value (op_kernel O) i (position x p) (position y p')) phi psi x p y p' =
     integrand_value S (op_integrand O') (fun i => kn_value (op_kernel O) i (position y p') (position x p)) psi phi y p' x p) ->
  exists s s',
    assemble_singular_part S X rt wmod O o (shape_of test trial) trial test = Ok s /\
    assemble_singular_part S X rt wmod O' o (shape_of trial test) test trial = Ok s' /\
    forall i j, sparse_entry S s i j = sparse_entry S s' j i.
Proof.
  intros L D F EX EK HI. assert (D' := dense_operator X _ _ O' _ _ _ _ _ _ F (dense_swap X _ _ _ _ _ _ _ _ D)).
  destruct (near_entries S one RT X rt wmod O o deg pts ct test trial L D) as (s & val & Es & V & H).
  destruct (near_entries S one RT X rt wmod O' o deg pts ct trial test L D') as (s' & val' & Es' & V' & H').
  exists s, s'. do 2 (split; [assumption|]). intros i j. unfold sparse_entry. rewrite H, H'. apply (matrix_transpose S one RT).
  intros t u a b Ht Hu. rewrite (touchb_swap X _ _ _ _ _ _ _ _ t u D Ht Hu). destruct (touchb trial test u t) eqn:Eb; [|reflexivity].
  assert (TB : touching trial test u t) by (apply touchb_spec in Eb; auto using (dn_same _ _ _ _ _ _ _ _ _ D')).
  assert (TA : touching test trial t u) by (apply touching_swap; [apply (dn_same _ _ _ _ _ _ _ _ _ D')|exact TB]).
  destruct (V t u a b Ht Hu) as [(_ & V1)|(N & _)]; [|contradiction]. destruct (V' u t b a Hu Ht) as [(_ & V2)|(N & _)]; [|contradiction].
  assert (Eid := proj1 TA). destruct (dn_singular _ _ _ _ _ _ _ _ _ D Eid) as (_ & _ & C & _).
  rewrite <- (dn_same _ _ _ _ _ _ _ _ _ D Eid) in Hu.
  eapply (singular_exchanged O O' deg test trial t u a b); eauto using (dn_same _ _ _ _ _ _ _ _ _ D).
  apply (ss_grid _ (dn_test _ _ _ _ _ _ _ _ _ D)).
Qed.

End Exchange.

Section Theorems.
Context {T R : Type} (S : scalar T R) (X : externals R).

Lemma no_difference one (RT : ring_theory (s_zero S) one (s_add S) (s_mul S) (s_sub S) (s_neg S) eq) rows cols (m m' : list T) s s' :
  transposed_beyond S rows cols m s m' s' -> (forall i j, sparse_entry S s i j = sparse_entry S s' j i) -> transpose rows cols m m'.
Proof.
  intros (L & L' & H) E. split; [assumption|]. split; [lia|]. intros i j Hi Hj.
  assert (A : i + rows * j < length m) by (rewrite L; nia). assert (B : j + cols * i < length m') by (rewrite L'; nia).
  destruct (nth_error m (i + rows * j)) as [x|] eqn:Ex; [|apply nth_error_None in Ex; lia].
  destruct (nth_error m' (j + cols * i)) as [y|] eqn:Ey; [|apply nth_error_None in Ey; lia].
  exists x. split; [reflexivity|]. f_equal. assert (C := H i j x y Hi Hj Ex Ey). rewrite (E i j) in C.
  set (c := sparse_entry S s' j i) in C. rewrite !(Rsub_def RT) in C.
  rewrite <- (Radd_0_l RT x), <- (Radd_0_l RT y), <- (Ropp_def RT c).
  rewrite <- !(Radd_assoc RT), (Radd_comm RT (s_neg S c) x), (Radd_comm RT (s_neg S c) y). now rewrite C.
Qed.

Theorem symmetric_exchange : forall rt wmod (O : operator T R) o deg pts ct (test trial : fspace T R), exact S -> exact_cast S ->
  legal_runtime (s_add S) rt -> dense_setting X wmod O o deg pts ct test trial ->
  (g_id (fs_grid test) = g_id (fs_grid trial) -> exchange_setting X deg test trial) ->
  symmetric_integrand (op_integrand O) -> symmetric_kernel (op_kernel O) ->
  exists m s m' s',
    assemble S X rt wmod O o trial test = Ok m /\
    assemble_singular_part S X rt wmod O o (shape_of test trial) trial test = Ok s /\
    assemble S X rt wmod O o test trial = Ok m' /\
    assemble_singular_part S X rt wmod O o (shape_of trial test) test trial = Ok s' /\
    transpose (global_size (fs_space test)) (global_size (fs_space trial)) m m' /\
    forall i j, sparse_entry S s i j = sparse_entry S s' j i.
Proof.
  intros rt wmod O o deg pts ct test trial EX (HC & _) L D ES F K.
  destruct (exact_transpose S X rt wmod O o deg pts ct test trial EX L D F K) as (m & s & m' & s' & E & Es & E' & Es' & B).
  destruct EX as ((one & RT) & inv & Hdiv).
  destruct (exchanged_near S one RT HC X rt wmod O O o deg pts ct test trial L D (dn_fitting _ _ _ _ _ _ _ _ _ D) ES eq_refl) as (u & u' & Eu & Eu' & H).
  { intros x y phi psi p p'. apply (symmetric_value S one RT inv Hdiv); auto. }
  assert (u = s) by congruence. assert (u' = s') by congruence. subst u u'.
  exists m, s, m', s'. repeat (split; [assumption|]). split; [|assumption]. now apply (no_difference one RT _ _ _ _ s s').
Qed.

Theorem symmetric_matrix : forall rt wmod (O : operator T R) o deg pts ct (fs : fspace T R), exact S -> exact_cast S ->
  legal_runtime (s_add S) rt -> dense_setting X wmod O o deg pts ct fs fs -> exchange_setting X deg fs fs ->
  symmetric_integrand (op_integrand O) -> symmetric_kernel (op_kernel O) ->
  exists m s,
    assemble S X rt wmod O o fs fs = Ok m /\
    assemble_singular_part S X rt wmod O o (shape_of fs fs) fs fs = Ok s /\
    transpose (global_size (fs_space fs)) (global_size (fs_space fs)) m m /\
    forall i j, sparse_entry S s i j = sparse_entry S s j i.
Proof.
  intros rt wmod O o deg pts ct fs EX EC L D ES F K.
  destruct (symmetric_exchange rt wmod O o deg pts ct fs fs EX EC L D (fun _ => ES) F K) as (m & s & m' & s' & E & Es & E' & Es' & H & Hs).
  assert (m' = m) by congruence. assert (s' = s) by congruence. subst m' s'. exists m, s. auto.
Qed.

Theorem adjoint_exchange : forall rt wmod (G : green) o deg pts ct (test trial : fspace T R), exact S -> exact_cast S ->
  legal_runtime (s_add S) rt -> dense_setting X wmod (laplace_adjoint_double_layer G) o deg pts ct test trial ->
  (g_id (fs_grid test) = g_id (fs_grid trial) -> exchange_setting X deg test trial) ->
  antisymmetric_gradient S (mkKernel ValueDeriv G) ->
  exists m s m' s',
    assemble S X rt wmod (laplace_adjoint_double_layer G) o trial test = Ok m /\
    assemble_singular_part S X rt wmod (laplace_adjoint_double_layer G) o (shape_of test trial) trial test = Ok s /\
    assemble S X rt wmod (laplace_double_layer G) o test trial = Ok m' /\
    assemble_singular_part S X rt wmod (laplace_double_layer G) o (shape_of trial test) test trial = Ok s' /\
    transpose (global_size (fs_space test)) (global_size (fs_space trial)) m m' /\
    forall i j, sparse_entry S s i j = sparse_entry S s' j i.
Proof.
  intros rt wmod G o deg pts ct test trial EX (HC & _) L D ES K.
  destruct (exact_adjoint S X rt wmod G o deg pts ct test trial EX L D K) as (m & s & m' & s' & E & Es & E' & Es' & B).
  destruct EX as ((one & RT) & inv & Hdiv).
  destruct (exchanged_near S one RT HC X rt wmod (laplace_adjoint_double_layer G) (laplace_double_layer G) o deg pts ct test trial L D) as (u & u' & Eu & Eu' & H); auto.
  { apply (shipped_fitting S). constructor. }
  { intros x y phi psi p p'. apply (adjoint_value S one RT). intros i Hi. apply K. exact Hi. }
  assert (u = s) by congruence. assert (u' = s') by congruence. subst u u'.
  exists m, s, m', s'. repeat (split; [assumption|]). split; [|assumption]. now apply (no_difference one RT _ _ _ _ s s').
Qed.

End Theorems.
