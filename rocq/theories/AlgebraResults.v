(** * Symmetry and constants *)
From Coq Require Import Ring_theory Ring.
From Verif Require Import Base BaseFacts Topology TopologyFacts DofMap SpecDof Colouring SpecColour ColouringResults Process Space SpecSpace
  Options Batch SpecBatch BatchFacts BatchResults Adjacency SpecAdjacency AdjacencyFacts AdjacencyResults
  Scalar Integrand CellPair Operators SpecLocal LocalFacts LocalResults Interleave Assembly SpecAssembly InterleaveFacts AssemblyFacts
  AssemblyRaces AssemblyValues AssemblySingular AssemblyDense AssemblyExact AssemblyResults SpecAlgebra AlgebraFacts.

Section Relations.
Context {T R : Type} (S : scalar T R) (one : T) (RT : ring_theory (s_zero S) one (s_add S) (s_mul S) (s_sub S) (s_neg S) eq).
Context (inv : T -> T) (Hdiv : forall a b, s_div S a b = s_mul S a (inv b)).
Context (X : externals R).
Add Ring scalar_ring : RT.
Local Notation "a +! b" := (s_add S a b) (at level 50, left associativity).
Local Notation "a -! b" := (s_sub S a b) (at level 50, left associativity).
Local Notation "a *! b" := (s_mul S a b) (at level 40, left associativity).

(** ** Transposition *)

Lemma tensor_swap f f' (G : @green T R) (x y : cell_map R) phi psi wt ws a b :
  (forall phi psi p q, integrand_value S f (fun i => G i (position x p) (position y q)) phi psi x p y q =
     integrand_value S f' (fun i => G i (position y q) (position x p)) psi phi y q x p) ->
  tensor_entry S f G x y phi psi wt ws a b = tensor_entry S f' G y x psi phi ws wt b a.
Proof.
  intros H. rewrite !(tensor_total S one RT). rewrite (total_swap S one RT). apply total_ext. intros qw _. apply total_ext. intros pw _.
  unfold tensor_term. rewrite H. ring.
Qed.

Lemma symmetric_value f (k k' phi psi : nat -> T) (x : cell_map R) p (y : cell_map R) q : symmetric_integrand f -> k 0 = k' 0 ->
  integrand_value S f k phi psi x p y q = integrand_value S f k' psi phi y q x p.
Proof.
  intros F E. induction F; cbn [integrand_value].
  - rewrite E. ring.
  - rewrite E, !Hdiv. unfold dot. ring.
  - rewrite E. unfold dot. ring.
  - now rewrite IHF1, IHF2.
  - now rewrite IHF.
Qed.

Lemma adjoint_value (k k' phi psi : nat -> T) (x : cell_map R) p (y : cell_map R) q : (forall i, 1 <= i <= 3 -> k i = s_neg S (k' i)) ->
  integrand_value S AdjointDoubleLayer k phi psi x p y q = integrand_value S DoubleLayer k' psi phi y q x p.
Proof.
  intros E. cbn [integrand_value]. unfold dot. cbn [Nat.add]. rewrite (E 1), (E 2), (E 3) by lia. ring.
Qed.

Lemma dense_swap wmod (O : operator T R) o deg pts ct test trial :
  dense_setting X wmod O o deg pts ct test trial -> dense_setting X wmod O o deg pts ct trial test.
Proof.
  intros [A1 A2 A3 A4 A5 A6 A7 A8 A9 B1 B2 B3 B4 B5 B6 B7 B8]. constructor; auto.
  - intros E. symmetry. apply A3. now symmetry.
  - intros E. symmetry in E. rewrite <- (A3 E). now apply B8.
Qed.

Lemma dense_operator wmod (O O' : operator T R) o deg pts ct test trial : fitting O' ->
  dense_setting X wmod O o deg pts ct test trial -> dense_setting X wmod O' o deg pts ct test trial.
Proof. intros F [A1 A2 A3 A4 A5 A6 A7 A8 A9 B1 B2 B3 B4 B5 B6 B7 B8]. constructor; auto. Qed.

Lemma touching_swap (test trial : fspace T R) t s : same_object test trial -> touching test trial t s -> touching trial test s t.
Proof.
  intros A (E & v & H1 & H2). split; [now symmetry|]. exists v. rewrite <- (A E). auto.
Qed.

Lemma touchb_swap wmod (O : operator T R) o deg pts ct test trial t s : dense_setting X wmod O o deg pts ct test trial ->
  t < ent_count (fs_grid test) 2 -> s < ent_count (fs_grid trial) 2 -> touchb test trial t s = touchb trial test s t.
Proof.
  intros D Ht Hs. assert (D' := dense_swap _ _ _ _ _ _ _ _ D).
  destruct (touchb test trial t s) eqn:E1, (touchb trial test s t) eqn:E2; try reflexivity; exfalso.
  - apply touchb_spec in E1; auto using (dn_same _ _ _ _ _ _ _ _ _ D).
    apply touching_swap in E1; [|apply (dn_same _ _ _ _ _ _ _ _ _ D)]. apply touchb_spec in E1; [congruence|..]; auto using (dn_same _ _ _ _ _ _ _ _ _ D').
  - apply touchb_spec in E2; auto using (dn_same _ _ _ _ _ _ _ _ _ D').
    apply touching_swap in E2; [|apply (dn_same _ _ _ _ _ _ _ _ _ D')]. apply touchb_spec in E2; [congruence|..]; auto using (dn_same _ _ _ _ _ _ _ _ _ D).
Qed.

Lemma matrix_sub val val' test trial i j :
  matrix_entry S (fun t s a b => val t s a b -! val' t s a b) test trial i j =
  matrix_entry S val test trial i j -! matrix_entry S val' test trial i j.
Proof.
  replace (matrix_entry S val' test trial i j) with (s_neg S (s_neg S one *! matrix_entry S val' test trial i j)) by ring.
  rewrite <- (matrix_mul S one RT). 
  transitivity (matrix_entry S val test trial i j +! matrix_entry S (fun t s a b => s_neg S one *! val' t s a b) test trial i j); [|ring].
  rewrite <- (matrix_add S one RT). apply matrix_ext. intros. ring.
Qed.

(** The part of the matrix beyond the singular part. *)
Lemma beyond rt wmod O o deg pts ct test trial :
  legal_runtime (s_add S) rt -> dense_setting X wmod O o deg pts ct test trial ->
  exists m s val, assemble S X rt wmod O o trial test = Ok m /\
    assemble_singular_part S X rt wmod O o (shape_of test trial) trial test = Ok s /\
    length m = global_size (fs_space test) * global_size (fs_space trial) /\
    (forall t s a b, t < ent_count (fs_grid test) 2 -> s < ent_count (fs_grid trial) 2 -> pair_value S X O deg pts test trial t s a b (val t s a b)) /\
    forall i j x, i < global_size (fs_space test) -> j < global_size (fs_space trial) ->
      nth_error m (i + global_size (fs_space test) * j) = Some x ->
      x -! sparse_entry S s i j = matrix_entry S (fun t s a b => if touchb test trial t s then s_zero S else val t s a b) test trial i j.
Proof.
  intros L D.
  destruct (assembled S one RT X rt wmod O o deg pts ct test trial L D) as (m & val & E & Ll & V & H).
  destruct (near_entries S one RT X rt wmod O o deg pts ct test trial L D) as (s & val' & Es & V' & H').
  exists m, s, val. do 4 (split; [assumption|]). intros i j x Hi Hj Hx. rewrite H in Hx by auto. injection Hx as <-.
  unfold sparse_entry. rewrite H', <- matrix_sub. apply matrix_ext. intros t s' a b Ht Hs.
  rewrite (pair_value_unique S X O deg pts test trial t s' a b _ _ (V' t s' a b Ht Hs) (V t s' a b Ht Hs)).
  destruct (touchb test trial t s'); ring.
Qed.

Lemma transposed rt wmod O O' o deg pts ct test trial :
  legal_runtime (s_add S) rt -> dense_setting X wmod O o deg pts ct test trial -> fitting O' ->
  (forall t s a b v, regular_value S X O pts test trial t s a b v -> regular_value S X O' pts trial test s t b a v) ->
  exists m s m' s',
    assemble S X rt wmod O o trial test = Ok m /\
    assemble_singular_part S X rt wmod O o (shape_of test trial) trial test = Ok s /\
    assemble S X rt wmod O' o test trial = Ok m' /\
    assemble_singular_part S X rt wmod O' o (shape_of trial test) test trial = Ok s' /\
    transposed_beyond S (global_size (fs_space test)) (global_size (fs_space trial)) m s m' s'.
Proof.
  intros L D F Hv. assert (D' := dense_operator _ _ O' _ _ _ _ _ _ F (dense_swap _ _ _ _ _ _ _ _ D)).
  destruct (beyond rt wmod O o deg pts ct test trial L D) as (m & s & val & E & Es & Ll & V & H).
  destruct (beyond rt wmod O' o deg pts ct trial test L D') as (m' & s' & val' & E' & Es' & Ll' & V' & H').
  exists m, s, m', s'. do 4 (split; [assumption|]). split; [assumption|]. split; [rewrite Ll'; apply Nat.mul_comm|].
  intros i j x y Hi Hj Hx Hy. rewrite (H i j x Hi Hj Hx), (H' j i y Hj Hi Hy). apply (matrix_transpose S one RT).
  intros t u a b Ht Hu. rewrite (touchb_swap _ _ _ _ _ _ _ _ t u D Ht Hu). destruct (touchb trial test u t) eqn:Eb; [reflexivity|].
  assert (Nb : ~ touching trial test u t).
  { intros C. apply touchb_spec in C; [congruence|..]; auto using (dn_same _ _ _ _ _ _ _ _ _ D'). }
  destruct (V t u a b Ht Hu) as [(C & _)|(_ & R1)]; [exfalso; apply Nb; now apply touching_swap; [apply (dn_same _ _ _ _ _ _ _ _ _ D)|]|].
  apply Hv in R1. apply (pair_value_unique S X O' deg pts trial test u t b a); [right; auto|auto].
Qed.

Theorem symmetric_operator rt wmod O o deg pts ct test trial :
  legal_runtime (s_add S) rt -> dense_setting X wmod O o deg pts ct test trial ->
  symmetric_integrand (op_integrand O) -> symmetric_kernel (op_kernel O) ->
  exists m s m' s',
    assemble S X rt wmod O o trial test = Ok m /\
    assemble_singular_part S X rt wmod O o (shape_of test trial) trial test = Ok s /\
    assemble S X rt wmod O o test trial = Ok m' /\
    assemble_singular_part S X rt wmod O o (shape_of trial test) test trial = Ok s' /\
    transposed_beyond S (global_size (fs_space test)) (global_size (fs_space trial)) m s m' s'.
Proof.
  intros L D F K. apply (transposed rt wmod O O o deg pts ct test trial L D (dn_fitting _ _ _ _ _ _ _ _ _ D)).
  intros t s a b v (qt & qs & E1 & E2 & ->). exists qs, qt. split; auto. split; auto. apply tensor_swap.
  intros phi psi p q. apply symmetric_value; auto.
Qed.

Theorem adjoint_operator rt wmod (G : green) o deg pts ct test trial :
  legal_runtime (s_add S) rt -> dense_setting X wmod (laplace_adjoint_double_layer G) o deg pts ct test trial ->
  antisymmetric_gradient S (mkKernel ValueDeriv G) ->
  exists m s m' s',
    assemble S X rt wmod (laplace_adjoint_double_layer G) o trial test = Ok m /\
    assemble_singular_part S X rt wmod (laplace_adjoint_double_layer G) o (shape_of test trial) trial test = Ok s /\
    assemble S X rt wmod (laplace_double_layer G) o test trial = Ok m' /\
    assemble_singular_part S X rt wmod (laplace_double_layer G) o (shape_of trial test) test trial = Ok s' /\
    transposed_beyond S (global_size (fs_space test)) (global_size (fs_space trial)) m s m' s'.
Proof.
  intros L D K. apply (transposed rt wmod _ (laplace_double_layer G) o deg pts ct test trial L D).
  - apply (shipped_fitting S). constructor.
  - intros t s a b v (qt & qs & E1 & E2 & ->). exists qs, qt. split; auto. split; auto. apply tensor_swap.
    intros phi psi p q. apply adjoint_value. intros i Hi. apply K. exact Hi.
Qed.

(** ** Constants *)

Lemma total_pick n x (v : T) : x < n -> total S (seq 0 n) (fun j => if x =? j then v else s_zero S) = v.
Proof.
  intros H. replace n with (x + (1 + (n - x - 1))) by lia. rewrite !seq_app, !(total_app S one RT). cbn [Nat.add seq].
  rewrite (total_zero S one RT (seq 0 x)), (total_zero S one RT (seq _ (n - x - 1))), total_cons, total_nil.
  - rewrite Nat.eqb_refl. ring.
  - intros y Hy. apply in_seq in Hy. destruct (Nat.eqb_spec x y); [lia|reflexivity].
  - intros y Hy. apply in_seq in Hy. destruct (Nat.eqb_spec x y); [lia|reflexivity].
Qed.

Lemma total_enumerate {A} (l : list A) (f : nat -> T) : total S (enumerate l) (fun x => f (fst x)) = total S (seq 0 (length l)) f.
Proof.
  unfold enumerate. generalize 0. induction l as [|x l IH]; intros n; cbn [length seq combine]; [reflexivity|].
  rewrite !total_cons, IH. reflexivity.
Qed.

Lemma matrix_row val test trial i :
  (forall s j, s < ent_count (fs_grid trial) 2 -> In j (dofs_at trial s) -> j < global_size (fs_space trial)) ->
  (forall t s a, t < ent_count (fs_grid test) 2 -> s < ent_count (fs_grid trial) 2 ->
     total S (seq 0 (length (dofs_at trial s))) (val t s a) = s_zero S) ->
  total S (seq 0 (global_size (fs_space trial))) (fun j => matrix_entry S val test trial i j) = s_zero S.
Proof.
  intros B H. unfold matrix_entry.
  rewrite (total_swap S one RT). apply (total_zero S one RT). intros t Ht.
  rewrite (total_swap S one RT). apply (total_zero S one RT). intros s Hs.
  rewrite (total_swap S one RT). apply (total_zero S one RT). intros [a i'] _. cbn [fst snd].
  apply in_seq in Ht, Hs.
  rewrite (total_swap S one RT). destruct (i' =? i); cbn [andb].
  - rewrite <- (H t s a) at 1 by lia. rewrite <- (total_enumerate (dofs_at trial s)). apply total_ext. intros [b j'] Hb. cbn [fst snd].
    apply total_pick. apply (B s); [lia|]. apply In_enumerate in Hb. eapply nth_error_In; eauto.
  - apply (total_zero S one RT). intros bj _. now apply (total_zero S one RT).
Qed.

Lemma matrix_column val test trial j :
  (forall t i, t < ent_count (fs_grid test) 2 -> In i (dofs_at test t) -> i < global_size (fs_space test)) ->
  (forall t s b, t < ent_count (fs_grid test) 2 -> s < ent_count (fs_grid trial) 2 ->
     total S (seq 0 (length (dofs_at test t))) (fun a => val t s a b) = s_zero S) ->
  total S (seq 0 (global_size (fs_space test))) (fun i => matrix_entry S val test trial i j) = s_zero S.
Proof.
  intros B H. rewrite (total_ext S _ _ (fun i => matrix_entry S (fun s t b a => val t s a b) trial test j i)).
  - apply matrix_row; auto.
  - intros i _. apply (matrix_transpose S one RT). reflexivity.
Qed.

(** Direction [d] of the two derivatives. *)
Definition unit_deriv (d e : nat) : T := if d =? e then one else s_zero S.

Lemma curl_trial (k phi psi : nat -> T) (x : cell_map R) p (y : cell_map R) q :
  integrand_value S HypersingularCurlCurl k phi psi x p y q =
  psi 1 *! integrand_value S HypersingularCurlCurl k phi (unit_deriv 1) x p y q +!
  psi 2 *! integrand_value S HypersingularCurlCurl k phi (unit_deriv 2) x p y q.
Proof. cbn [integrand_value]. rewrite !Hdiv. unfold dot, curl, unit_deriv. cbn [Nat.eqb]. ring. Qed.

Lemma curl_test (k phi psi : nat -> T) (x : cell_map R) p (y : cell_map R) q :
  integrand_value S HypersingularCurlCurl k phi psi x p y q =
  phi 1 *! integrand_value S HypersingularCurlCurl k (unit_deriv 1) psi x p y q +!
  phi 2 *! integrand_value S HypersingularCurlCurl k (unit_deriv 2) psi x p y q.
Proof. cbn [integrand_value]. rewrite !Hdiv. unfold dot, curl, unit_deriv. cbn [Nat.eqb]. ring. Qed.

Lemma total_mul_r {A} (l : list A) c f : total S l (fun x => f x *! c) = total S l f *! c.
Proof. rewrite (total_ext S l _ (fun x => c *! f x)) by (intros; ring). rewrite (total_mul S one RT). ring. Qed.

Lemma combination_zero n (f1 f2 : nat -> T) A B w : total S (seq 0 n) f1 = s_zero S -> total S (seq 0 n) f2 = s_zero S ->
  total S (seq 0 n) (fun b => (f1 b *! A +! f2 b *! B) *! w) = s_zero S.
Proof. intros E1 E2. rewrite total_mul_r, (total_add S one RT), !total_mul_r, E1, E2. ring. Qed.

Lemma trial_values_zero G deg pts test trial t s a (val : nat -> T) n :
  (forall b, pair_value S X (laplace_hypersingular G) deg pts test trial t s a b (val b)) ->
  (touching test trial t s -> g_ctype (fs_grid test) s = g_ctype (fs_grid trial) s) ->
  (forall points d p, d = 1 \/ d = 2 -> total S (seq 0 n) (fun b => fs_basis trial (g_ctype (fs_grid trial) s) points d p b 0) = s_zero S) ->
  total S (seq 0 n) val = s_zero S.
Proof.
  intros V Ec Z. destruct (V 0) as [(C & p & k & d & q & A1 & A2 & A3 & A4 & _)|(C & q & r & A1 & A2 & _)].
  - rewrite (total_ext S _ _ (fun b => pairwise_entry S HypersingularCurlCurl (kn_value (op_kernel (@laplace_hypersingular T R G)))
      (x_geometry X (fs_grid test) (g_ctype (fs_grid test) t) (pq_test q) t) (x_geometry X (fs_grid test) (g_ctype (fs_grid test) s) (pq_trial q) s)
      (fun d p i => fs_basis test (g_ctype (fs_grid test) t) (pq_test q) d p i 0)
      (fun d p i => fs_basis trial (g_ctype (fs_grid test) s) (pq_trial q) d p i 0) (pq_weights q) a b)).
    + rewrite (total_ext S _ _ _ (fun b _ => pairwise_total S one RT _ _ _ _ _ _ _ a b)). rewrite (total_swap S one RT).
      apply (total_zero S one RT). intros pw _. unfold pairwise_term.
      rewrite (total_ext S _ _ _ (fun b _ => f_equal (fun v => v *! _) (curl_trial _ _ _ _ _ _ _))).
      apply combination_zero; rewrite (Ec C); apply Z; auto.
    + intros b _. apply (pair_value_unique S X (laplace_hypersingular G) deg pts test trial t s a b); [apply V|].
      left. split; auto. exists p, k, d, q. repeat (split; [assumption|]). reflexivity.
  - rewrite (total_ext S _ _ (fun b => tensor_entry S HypersingularCurlCurl (kn_value (op_kernel (@laplace_hypersingular T R G)))
      (x_geometry X (fs_grid test) (g_ctype (fs_grid test) t) (qd_points q) t) (x_geometry X (fs_grid trial) (g_ctype (fs_grid trial) s) (qd_points r) s)
      (fun d p i => fs_basis test (g_ctype (fs_grid test) t) (qd_points q) d p i 0)
      (fun d p i => fs_basis trial (g_ctype (fs_grid trial) s) (qd_points r) d p i 0) (qd_weights q) (qd_weights r) a b)).
    + rewrite (total_ext S _ _ _ (fun b _ => tensor_total S one RT _ _ _ _ _ _ _ _ a b)). rewrite (total_swap S one RT).
      apply (total_zero S one RT). intros pw _. rewrite (total_swap S one RT). apply (total_zero S one RT). intros qw _. unfold tensor_term.
      rewrite (total_ext S _ _ _ (fun b _ => f_equal (fun v => v *! _ *! _) (curl_trial _ _ _ _ _ _ _))). rewrite total_mul_r.
      rewrite combination_zero; [ring|apply Z; auto|apply Z; auto].
    + intros b _. apply (pair_value_unique S X (laplace_hypersingular G) deg pts test trial t s a b); [apply V|].
      right. split; auto. exists q, r. repeat (split; [assumption|]). reflexivity.
Qed.

Lemma test_values_zero G deg pts test trial t s b (val : nat -> T) n :
  (forall a, pair_value S X (laplace_hypersingular G) deg pts test trial t s a b (val a)) ->
  (forall points d p, d = 1 \/ d = 2 -> total S (seq 0 n) (fun a => fs_basis test (g_ctype (fs_grid test) t) points d p a 0) = s_zero S) ->
  total S (seq 0 n) val = s_zero S.
Proof.
  intros V Z. destruct (V 0) as [(C & p & k & d & q & A1 & A2 & A3 & A4 & _)|(C & q & r & A1 & A2 & _)].
  - rewrite (total_ext S _ _ (fun a => pairwise_entry S HypersingularCurlCurl (kn_value (op_kernel (@laplace_hypersingular T R G)))
      (x_geometry X (fs_grid test) (g_ctype (fs_grid test) t) (pq_test q) t) (x_geometry X (fs_grid test) (g_ctype (fs_grid test) s) (pq_trial q) s)
      (fun d p i => fs_basis test (g_ctype (fs_grid test) t) (pq_test q) d p i 0)
      (fun d p i => fs_basis trial (g_ctype (fs_grid test) s) (pq_trial q) d p i 0) (pq_weights q) a b)).
    + rewrite (total_ext S _ _ _ (fun a _ => pairwise_total S one RT _ _ _ _ _ _ _ a b)). rewrite (total_swap S one RT).
      apply (total_zero S one RT). intros pw _. unfold pairwise_term.
      rewrite (total_ext S _ _ _ (fun a _ => f_equal (fun v => v *! _) (curl_test _ _ _ _ _ _ _))).
      apply combination_zero; apply Z; auto.
    + intros a _. apply (pair_value_unique S X (laplace_hypersingular G) deg pts test trial t s a b); [apply V|].
      left. split; auto. exists p, k, d, q. repeat (split; [assumption|]). reflexivity.
  - rewrite (total_ext S _ _ (fun a => tensor_entry S HypersingularCurlCurl (kn_value (op_kernel (@laplace_hypersingular T R G)))
      (x_geometry X (fs_grid test) (g_ctype (fs_grid test) t) (qd_points q) t) (x_geometry X (fs_grid trial) (g_ctype (fs_grid trial) s) (qd_points r) s)
      (fun d p i => fs_basis test (g_ctype (fs_grid test) t) (qd_points q) d p i 0)
      (fun d p i => fs_basis trial (g_ctype (fs_grid trial) s) (qd_points r) d p i 0) (qd_weights q) (qd_weights r) a b)).
    + rewrite (total_ext S _ _ _ (fun a _ => tensor_total S one RT _ _ _ _ _ _ _ _ a b)). rewrite (total_swap S one RT).
      apply (total_zero S one RT). intros pw _. rewrite (total_swap S one RT). apply (total_zero S one RT). intros qw _. unfold tensor_term.
      rewrite (total_ext S _ _ _ (fun a _ => f_equal (fun v => v *! _ *! _) (curl_test _ _ _ _ _ _ _))). rewrite total_mul_r.
      rewrite combination_zero; [ring|apply Z; auto|apply Z; auto].
    + intros a _. apply (pair_value_unique S X (laplace_hypersingular G) deg pts test trial t s a b); [apply V|].
      right. split; auto. exists q, r. repeat (split; [assumption|]). reflexivity.
Qed.

Lemma mapM_total (m : list T) (pos : nat -> nat) (f : nat -> T) l : (forall j, In j l -> nth_error m (pos j) = Some (f j)) ->
  mapM (fun j => vget m (pos j)) l = Ok (map f l).
Proof. intros H. apply mapM_Ok_all. intros j Hj. apply vget_Ok. auto. Qed.

Theorem constants_trial rt wmod (G : green) o deg pts ct test trial :
  legal_runtime (s_add S) rt -> dense_setting X wmod (laplace_hypersingular G) o deg pts ct test trial -> sums_to_constant S trial ->
  exists m, assemble S X rt wmod (laplace_hypersingular G) o trial test = Ok m /\
    forall i, i < global_size (fs_space test) -> row_sum S (global_size (fs_space test)) (global_size (fs_space trial)) m i (s_zero S).
Proof.
  intros L D Z. destruct (assembled S one RT X rt wmod _ o deg pts ct test trial L D) as (m & val & E & Ll & V & H).
  exists m. split; auto. intros i Hi. eexists. split; [apply mapM_total; intros j Hj; apply in_seq in Hj; apply H; [auto|lia]|].
  rewrite (total_map S). apply matrix_row.
  - intros s j Hs Hj. now apply (dofs_at_spec trial s (dn_trial _ _ _ _ _ _ _ _ _ D) Hs).
  - intros t s a Ht Hs. eapply trial_values_zero.
    + intros b. now apply V.
    + intros (Eg & _). now rewrite (dn_same _ _ _ _ _ _ _ _ _ D Eg).
    + intros points d p Hd. 
      destruct (member_dofs trial s (serial_member trial (dn_trial _ _ _ _ _ _ _ _ _ D)) Hs) as ((_ & Ld) & _). rewrite Ld. apply Z; auto.
      apply (wf_ctype _ (ss_grid _ (dn_trial _ _ _ _ _ _ _ _ _ D)) s Hs).
Qed.

Theorem constants_test rt wmod (G : green) o deg pts ct test trial :
  legal_runtime (s_add S) rt -> dense_setting X wmod (laplace_hypersingular G) o deg pts ct test trial -> sums_to_constant S test ->
  exists m, assemble S X rt wmod (laplace_hypersingular G) o trial test = Ok m /\
    forall j, j < global_size (fs_space trial) -> column_sum S (global_size (fs_space test)) m j (s_zero S).
Proof.
  intros L D Z. destruct (assembled S one RT X rt wmod _ o deg pts ct test trial L D) as (m & val & E & Ll & V & H).
  exists m. split; auto. intros j Hj. eexists.
  split; [apply (mapM_total m (fun i => i + global_size (fs_space test) * j)); intros i Hi; apply in_seq in Hi; apply H; [lia|auto]|].
  rewrite (total_map S). apply matrix_column.
  - intros t i Ht Hi. now apply (dofs_at_spec test t (dn_test _ _ _ _ _ _ _ _ _ D) Ht).
  - intros t s b Ht Hs. apply (test_values_zero G deg pts test trial t s b).
    + intros a. now apply V.
    + intros points d p Hd. 
      destruct (member_dofs test t (serial_member test (dn_test _ _ _ _ _ _ _ _ _ D)) Ht) as ((_ & Ld) & _). rewrite Ld. apply Z; auto.
      apply (wf_ctype _ (ss_grid _ (dn_test _ _ _ _ _ _ _ _ _ D)) t Ht).
Qed.

End Relations.

(** ** For exact arithmetic *)

Section Exact.
Context {T R : Type} (S : scalar T R) (X : externals R).

Theorem exact_dense_sum rt wmod (O : operator T R) f g o deg pts ct test trial : exact S ->
  legal_runtime (s_add S) rt -> dense_setting X wmod (with_integrand O (Sum f g)) o deg pts ct test trial ->
  exists m0 m1 m,
    assemble S X rt wmod (with_integrand O f) o trial test = Ok m0 /\
    assemble S X rt wmod (with_integrand O g) o trial test = Ok m1 /\
    assemble S X rt wmod (with_integrand O (Sum f g)) o trial test = Ok m /\
    entrywise (s_add S) m0 m1 m.
Proof. intros ((one & RT) & (inv & Hdiv)). now apply (dense_sum S one RT). Qed.

Theorem exact_dense_multiple rt wmod (O : operator T R) c f o deg pts ct test trial : exact S ->
  legal_runtime (s_add S) rt -> dense_setting X wmod (with_integrand O (TimesScalar c f)) o deg pts ct test trial ->
  exists m0 m,
    assemble S X rt wmod (with_integrand O f) o trial test = Ok m0 /\
    assemble S X rt wmod (with_integrand O (TimesScalar c f)) o trial test = Ok m /\
    m = map (s_mul S c) m0.
Proof. intros ((one & RT) & (inv & Hdiv)). now apply (dense_multiple S one RT). Qed.

Theorem exact_singular_sum rt wmod (O : operator T R) f g o deg test trial : exact S ->
  legal_runtime (s_add S) rt -> singular_setting X wmod (with_integrand O (Sum f g)) o deg test trial ->
  exists m0 m1 m,
    assemble_singular_part S X rt wmod (with_integrand O f) o (shape_of test trial) trial test = Ok m0 /\
    assemble_singular_part S X rt wmod (with_integrand O g) o (shape_of test trial) trial test = Ok m1 /\
    assemble_singular_part S X rt wmod (with_integrand O (Sum f g)) o (shape_of test trial) trial test = Ok m /\
    sm_rows m0 = sm_rows m /\ sm_rows m1 = sm_rows m /\ sm_cols m0 = sm_cols m /\ sm_cols m1 = sm_cols m /\
    entrywise (s_add S) (sm_data m0) (sm_data m1) (sm_data m).
Proof. intros ((one & RT) & (inv & Hdiv)). now apply (singular_sum S one RT). Qed.

Theorem exact_singular_multiple rt wmod (O : operator T R) c f o deg test trial : exact S ->
  legal_runtime (s_add S) rt -> singular_setting X wmod (with_integrand O (TimesScalar c f)) o deg test trial ->
  exists m0 m,
    assemble_singular_part S X rt wmod (with_integrand O f) o (shape_of test trial) trial test = Ok m0 /\
    assemble_singular_part S X rt wmod (with_integrand O (TimesScalar c f)) o (shape_of test trial) trial test = Ok m /\
    sm_rows m = sm_rows m0 /\ sm_cols m = sm_cols m0 /\ sm_data m = map (s_mul S c) (sm_data m0).
Proof. intros ((one & RT) & (inv & Hdiv)). now apply (singular_multiple S one RT). Qed.

Theorem exact_helmholtz_hypersingular rt wmod (G : R -> green) k o deg pts ct (test trial : fspace T R) : exact S -> exact_cast S ->
  legal_runtime (s_add S) rt -> dense_setting X wmod (helmholtz_hypersingular S G k) o deg pts ct test trial ->
  exists curl_part normal_part m,
    assemble S X rt wmod (laplace_hypersingular (G k)) o trial test = Ok curl_part /\
    assemble S X rt wmod (mkOperator HypersingularNormalNormal (mkKernel ValueDeriv (G k)) 4 1) o trial test = Ok normal_part /\
    assemble S X rt wmod (helmholtz_hypersingular S G k) o trial test = Ok m /\
    entrywise (fun x y => s_sub S x (s_mul S (s_mul S (s_cast S k) (s_cast S k)) y)) curl_part normal_part m.
Proof. intros ((one & RT) & (inv & Hdiv)). now apply (helmholtz_hypersingular_split S one RT). Qed.

Theorem exact_transpose rt wmod (O : operator T R) o deg pts ct test trial : exact S ->
  legal_runtime (s_add S) rt -> dense_setting X wmod O o deg pts ct test trial ->
  symmetric_integrand (op_integrand O) -> symmetric_kernel (op_kernel O) ->
  exists m s m' s',
    assemble S X rt wmod O o trial test = Ok m /\
    assemble_singular_part S X rt wmod O o (shape_of test trial) trial test = Ok s /\
    assemble S X rt wmod O o test trial = Ok m' /\
    assemble_singular_part S X rt wmod O o (shape_of trial test) test trial = Ok s' /\
    transposed_beyond S (global_size (fs_space test)) (global_size (fs_space trial)) m s m' s'.
Proof. intros ((one & RT) & (inv & Hdiv)). now apply (symmetric_operator S one RT inv Hdiv). Qed.

Theorem exact_symmetric rt wmod (O : operator T R) o deg pts ct fs : exact S ->
  legal_runtime (s_add S) rt -> dense_setting X wmod O o deg pts ct fs fs ->
  symmetric_integrand (op_integrand O) -> symmetric_kernel (op_kernel O) ->
  exists m s,
    assemble S X rt wmod O o fs fs = Ok m /\
    assemble_singular_part S X rt wmod O o (shape_of fs fs) fs fs = Ok s /\
    forall i j, i < global_size (fs_space fs) -> j < global_size (fs_space fs) ->
      exists x y, nth_error m (i + global_size (fs_space fs) * j) = Some x /\ nth_error m (j + global_size (fs_space fs) * i) = Some y /\
        s_sub S x (sparse_entry S s i j) = s_sub S y (sparse_entry S s j i).
Proof.
  intros EX L D F K. destruct (exact_transpose rt wmod O o deg pts ct fs fs EX L D F K) as (m & s & m' & s' & E & Es & E' & Es' & Lm & _ & H).
  assert (m' = m) by congruence. assert (s' = s) by congruence. subst m' s'. exists m, s. do 2 (split; [assumption|]). intros i j Hi Hj.
  set (n := global_size (fs_space fs)) in *.
  assert (A : i + n * j < length m) by (rewrite Lm; nia). assert (B : j + n * i < length m) by (rewrite Lm; nia).
  destruct (nth_error m (i + n * j)) as [x|] eqn:Ex; [|apply nth_error_None in Ex; lia].
  destruct (nth_error m (j + n * i)) as [y|] eqn:Ey; [|apply nth_error_None in Ey; lia].
  exists x, y. eauto.
Qed.

Theorem exact_adjoint rt wmod (G : green) o deg pts ct (test trial : fspace T R) : exact S ->
  legal_runtime (s_add S) rt -> dense_setting X wmod (laplace_adjoint_double_layer G) o deg pts ct test trial ->
  antisymmetric_gradient S (mkKernel ValueDeriv G) ->
  exists m s m' s',
    assemble S X rt wmod (laplace_adjoint_double_layer G) o trial test = Ok m /\
    assemble_singular_part S X rt wmod (laplace_adjoint_double_layer G) o (shape_of test trial) trial test = Ok s /\
    assemble S X rt wmod (laplace_double_layer G) o test trial = Ok m' /\
    assemble_singular_part S X rt wmod (laplace_double_layer G) o (shape_of trial test) test trial = Ok s' /\
    transposed_beyond S (global_size (fs_space test)) (global_size (fs_space trial)) m s m' s'.
Proof. intros ((one & RT) & (inv & Hdiv)). now apply (adjoint_operator S one RT). Qed.

Theorem exact_rows rt wmod (G : green) o deg pts ct (test trial : fspace T R) : exact S ->
  legal_runtime (s_add S) rt -> dense_setting X wmod (laplace_hypersingular G) o deg pts ct test trial -> sums_to_constant S trial ->
  exists m, assemble S X rt wmod (laplace_hypersingular G) o trial test = Ok m /\
    forall i, i < global_size (fs_space test) -> row_sum S (global_size (fs_space test)) (global_size (fs_space trial)) m i (s_zero S).
Proof. intros ((one & RT) & (inv & Hdiv)). now apply (constants_trial S one RT inv Hdiv). Qed.

Theorem exact_columns rt wmod (G : green) o deg pts ct (test trial : fspace T R) : exact S ->
  legal_runtime (s_add S) rt -> dense_setting X wmod (laplace_hypersingular G) o deg pts ct test trial -> sums_to_constant S test ->
  exists m, assemble S X rt wmod (laplace_hypersingular G) o trial test = Ok m /\
    forall j, j < global_size (fs_space trial) -> column_sum S (global_size (fs_space test)) m j (s_zero S).
Proof. intros ((one & RT) & (inv & Hdiv)). now apply (constants_test S one RT inv Hdiv). Qed.

End Exact.
