(** * Relations between matrices *)
From Coq Require Import Ring_theory Ring.
From Verif Require Import Base BaseFacts Topology TopologyFacts DofMap SpecDof Colouring SpecColour ColouringResults Process Space SpecSpace
  Options Batch SpecBatch BatchFacts BatchResults Adjacency SpecAdjacency AdjacencyFacts AdjacencyResults
  Scalar Integrand CellPair Operators SpecLocal LocalFacts LocalResults Interleave Assembly SpecAssembly InterleaveFacts AssemblyFacts
  AssemblyRaces AssemblyValues AssemblySingular AssemblyDense AssemblyExact AssemblyResults SpecAlgebra.

Section Algebra.
Context {T R : Type} (S : scalar T R) (one : T) (RT : ring_theory (s_zero S) one (s_add S) (s_mul S) (s_sub S) (s_neg S) eq).
Context (inv : T -> T) (Hdiv : forall a b, s_div S a b = s_mul S a (inv b)).
Add Ring scalar_ring : RT.
Local Notation "a +! b" := (s_add S a b) (at level 50, left associativity).
Local Notation "a -! b" := (s_sub S a b) (at level 50, left associativity).
Local Notation "a *! b" := (s_mul S a b) (at level 40, left associativity).

Lemma zero_add x : s_zero S +! x = x. Proof. ring. Qed.

Lemma fold_total {A} (l : list A) (f : A -> T) z : fold_left (fun acc x => acc +! f x) l z = z +! total S l f.
Proof. revert z. induction l as [|x l IH]; intros z; cbn [fold_left]; [unfold total; cbn; ring|]. rewrite IH, total_cons. ring. Qed.

Lemma fold_ext {A B} (f g : A -> B -> A) l z : (forall a b, f a b = g a b) -> fold_left f l z = fold_left g l z.
Proof. intros H. revert z. induction l as [|x l IH]; intros z; cbn; [reflexivity|]. rewrite H. apply IH. Qed.

(** ** Quadrature formulas as sums *)

Definition tensor_term (f : integrand T) (G : green) (x y : cell_map R) (phi psi : @basis T) (a b : nat) (pw qw : nat * R) : T :=
  integrand_value S f (fun i => G i (position x (fst pw)) (position y (fst qw)))
    (fun d => phi d (fst pw) a) (fun d => psi d (fst qw) b) x (fst pw) y (fst qw)
  *! s_cast S (r_mul S (snd qw) (cm_jdet y (fst qw)))
  *! s_cast S (r_mul S (snd pw) (cm_jdet x (fst pw))).

Lemma tensor_total f G x y phi psi wt ws a b :
  tensor_entry S f G x y phi psi wt ws a b =
  total S (enumerate wt) (fun pw => total S (enumerate ws) (fun qw => tensor_term f G x y phi psi a b pw qw)).
Proof.
  unfold tensor_entry. erewrite fold_ext; [rewrite fold_total; apply zero_add|].
  intros acc pw. cbv beta. rewrite fold_total. reflexivity.
Qed.

Definition pairwise_term (f : integrand T) (G : green) (x y : cell_map R) (phi psi : @basis T) (a b : nat) (pw : nat * R) : T :=
  integrand_value S f (fun i => G i (position x (fst pw)) (position y (fst pw)))
    (fun d => phi d (fst pw) a) (fun d => psi d (fst pw) b) x (fst pw) y (fst pw)
  *! s_cast S (r_mul S (snd pw) (r_mul S (cm_jdet x (fst pw)) (cm_jdet y (fst pw)))).

Lemma pairwise_total f G x y phi psi w a b :
  pairwise_entry S f G x y phi psi w a b = total S (enumerate w) (pairwise_term f G x y phi psi a b).
Proof. unfold pairwise_entry. rewrite fold_total. apply zero_add. Qed.

(** ** Linearity *)

Definition linear (F : integrand T -> T) : Prop :=
  (forall f g, F (Sum f g) = F f +! F g) /\ (forall c f, F (TimesScalar c f) = c *! F f).

Lemma tensor_linear G x y phi psi wt ws a b : linear (fun f => tensor_entry S f G x y phi psi wt ws a b).
Proof.
  split; intros; rewrite !tensor_total.
  - rewrite <- (total_add S one RT). apply total_ext. intros pw _. rewrite <- (total_add S one RT). apply total_ext. intros qw _.
    unfold tensor_term. cbn [integrand_value]. ring.
  - rewrite <- (total_mul S one RT). apply total_ext. intros pw _. rewrite <- (total_mul S one RT). apply total_ext. intros qw _.
    unfold tensor_term. cbn [integrand_value]. ring.
Qed.

Lemma pairwise_linear G x y phi psi w a b : linear (fun f => pairwise_entry S f G x y phi psi w a b).
Proof.
  split; intros; rewrite !pairwise_total.
  - rewrite <- (total_add S one RT). apply total_ext. intros pw _. unfold pairwise_term. cbn [integrand_value]. ring.
  - rewrite <- (total_mul S one RT). apply total_ext. intros pw _. unfold pairwise_term. cbn [integrand_value]. ring.
Qed.

Context (X : externals R).

Lemma pair_value_family O deg pts test trial t s a b v : pair_value S X O deg pts test trial t s a b v ->
  exists F, (forall f, pair_value S X (with_integrand O f) deg pts test trial t s a b (F f)) /\ linear F.
Proof.
  intros [(C & p & k & d & q & A1 & A2 & A3 & A4 & _)|(C & q & r & A1 & A2 & _)].
  - eexists. split; [|exact (pairwise_linear (kn_value (op_kernel O))
      (x_geometry X (fs_grid test) (g_ctype (fs_grid test) t) (pq_test q) t) (x_geometry X (fs_grid test) (g_ctype (fs_grid test) s) (pq_trial q) s)
      (fun d p i => fs_basis test (g_ctype (fs_grid test) t) (pq_test q) d p i 0)
      (fun d p i => fs_basis trial (g_ctype (fs_grid test) s) (pq_trial q) d p i 0) (pq_weights q) a b)].
    intros f. left. split; auto. exists p, k, d, q. repeat (split; [assumption|]). reflexivity.
  - eexists. split; [|exact (tensor_linear (kn_value (op_kernel O))
      (x_geometry X (fs_grid test) (g_ctype (fs_grid test) t) (qd_points q) t) (x_geometry X (fs_grid trial) (g_ctype (fs_grid trial) s) (qd_points r) s)
      (fun d p i => fs_basis test (g_ctype (fs_grid test) t) (qd_points q) d p i 0)
      (fun d p i => fs_basis trial (g_ctype (fs_grid trial) s) (qd_points r) d p i 0) (qd_weights q) (qd_weights r) a b)].
    intros f. right. split; auto. exists q, r. repeat (split; [assumption|]). reflexivity.
Qed.

(** ** Matrices *)

Lemma matrix_ext val val' test trial i j :
  (forall t s a b, t < ent_count (fs_grid test) 2 -> s < ent_count (fs_grid trial) 2 -> val t s a b = val' t s a b) ->
  matrix_entry S val test trial i j = matrix_entry S val' test trial i j.
Proof.
  intros H. unfold matrix_entry. apply total_ext. intros t Ht. apply total_ext. intros s Hs. apply total_ext. intros [a i'] _.
  apply total_ext. intros [b j'] _. cbn [fst snd]. apply in_seq in Ht, Hs. destruct (_ && _); auto. apply H; lia.
Qed.

Lemma matrix_add val val' test trial i j :
  matrix_entry S (fun t s a b => val t s a b +! val' t s a b) test trial i j =
  matrix_entry S val test trial i j +! matrix_entry S val' test trial i j.
Proof.
  unfold matrix_entry. rewrite <- (total_add S one RT). apply total_ext. intros t _. rewrite <- (total_add S one RT). apply total_ext. intros s _.
  rewrite <- (total_add S one RT). apply total_ext. intros ai _. rewrite <- (total_add S one RT). apply total_ext. intros bj _.
  destruct (_ && _); ring.
Qed.

Lemma matrix_mul c val test trial i j :
  matrix_entry S (fun t s a b => c *! val t s a b) test trial i j = c *! matrix_entry S val test trial i j.
Proof.
  unfold matrix_entry. rewrite <- (total_mul S one RT). apply total_ext. intros t _. rewrite <- (total_mul S one RT). apply total_ext. intros s _.
  rewrite <- (total_mul S one RT). apply total_ext. intros ai _. rewrite <- (total_mul S one RT). apply total_ext. intros bj _.
  destruct (_ && _); ring.
Qed.

(** The transposed sums. *)
Lemma matrix_transpose val val' test trial i j :
  (forall t s a b, t < ent_count (fs_grid test) 2 -> s < ent_count (fs_grid trial) 2 -> val t s a b = val' s t b a) ->
  matrix_entry S val test trial i j = matrix_entry S val' trial test j i.
Proof.
  intros H. unfold matrix_entry. rewrite (total_swap S one RT). apply total_ext. intros s Hs. apply total_ext. intros t Ht.
  rewrite (total_swap S one RT). apply total_ext. intros [b j'] _. apply total_ext. intros [a i'] _. cbn [fst snd]. apply in_seq in Ht, Hs.
  rewrite andb_comm. destruct (_ && _); auto. apply H; lia.
Qed.

Lemma assembled rt wmod O o deg pts ct test trial :
  legal_runtime (s_add S) rt -> dense_setting X wmod O o deg pts ct test trial ->
  exists m val, assemble S X rt wmod O o trial test = Ok m /\
    length m = global_size (fs_space test) * global_size (fs_space trial) /\
    (forall t s a b, t < ent_count (fs_grid test) 2 -> s < ent_count (fs_grid trial) 2 -> pair_value S X O deg pts test trial t s a b (val t s a b)) /\
    forall i j, i < global_size (fs_space test) -> j < global_size (fs_space trial) ->
      nth_error m (i + global_size (fs_space test) * j) = Some (matrix_entry S val test trial i j).
Proof.
  intros L D.
  destruct (dense_entries S one RT X rt wmod O o deg pts ct test trial
    (repeat (s_zero S) (global_size (fs_space test) * global_size (fs_space trial))) L D (repeat_length _ _)) as (m & val & E & V & Ll & H).
  rewrite (assemble_on_zeros S X rt wmod O o trial test (ss_processes _ (dn_test _ _ _ _ _ _ _ _ _ D)) (ss_processes _ (dn_trial _ _ _ _ _ _ _ _ _ D))) in E.
  exists m, val. split; [now injection E|]. rewrite repeat_length in Ll. split; auto. split; auto.
  intros i j Hi Hj. rewrite (H i j (s_zero S) Hi Hj).
  - now rewrite zero_add.
  - apply nth_error_repeat. nia.
Qed.

(** A position is a row and a column. *)
Lemma position_split rows cols k : k < rows * cols -> exists i j, i < rows /\ j < cols /\ k = i + rows * j.
Proof.
  intros H. assert (rows <> 0) by (intros ->; cbn in H; lia). exists (k mod rows), (k / rows).
  split; [now apply Nat.mod_upper_bound|]. split; [apply Nat.div_lt_upper_bound; lia|]. rewrite (Nat.div_mod k rows) at 1 by auto. lia.
Qed.

Lemma fitting_part (O : operator T R) f g wmod o deg pts ct test trial :
  (kernel_used f <= kernel_used g) -> derivs_used f <= derivs_used g ->
  dense_setting X wmod (with_integrand O g) o deg pts ct test trial -> dense_setting X wmod (with_integrand O f) o deg pts ct test trial.
Proof.
  intros K U [A1 A2 A3 A4 A5 A6 A7 A8 A9 B1 B2 B3 B4 B5 B6 B7 B8]. constructor; auto.
  destruct B1 as (F1 & F2 & F3). cbn in *. split; [exact F1|]. cbn. split; lia.
Qed.

Lemma fitting_part_singular (O : operator T R) f g wmod o deg test trial :
  (kernel_used f <= kernel_used g) -> derivs_used f <= derivs_used g ->
  singular_setting X wmod (with_integrand O g) o deg test trial -> singular_setting X wmod (with_integrand O f) o deg test trial.
Proof.
  intros K U [A1 A2 A3 A4 A5 A6 A7 A8 A9 B1 B2 B3 B4 B5]. constructor; auto.
  destruct A7 as (F1 & F2 & F3). cbn in *. split; [exact F1|]. cbn. split; lia.
Qed.

Theorem dense_sum rt wmod O f g o deg pts ct test trial :
  legal_runtime (s_add S) rt -> dense_setting X wmod (with_integrand O (Sum f g)) o deg pts ct test trial ->
  exists m0 m1 m,
    assemble S X rt wmod (with_integrand O f) o trial test = Ok m0 /\
    assemble S X rt wmod (with_integrand O g) o trial test = Ok m1 /\
    assemble S X rt wmod (with_integrand O (Sum f g)) o trial test = Ok m /\
    entrywise (s_add S) m0 m1 m.
Proof.
  intros L D.
  assert (D0 : dense_setting X wmod (with_integrand O f) o deg pts ct test trial) by (eapply fitting_part; [| |exact D]; cbn; lia).
  assert (D1 : dense_setting X wmod (with_integrand O g) o deg pts ct test trial) by (eapply fitting_part; [| |exact D]; cbn; lia).
  destruct (assembled rt wmod _ o deg pts ct test trial L D) as (m & val & E & Ll & V & H).
  destruct (assembled rt wmod _ o deg pts ct test trial L D0) as (m0 & val0 & E0 & L0 & V0 & H0).
  destruct (assembled rt wmod _ o deg pts ct test trial L D1) as (m1 & val1 & E1 & L1 & V1 & H1).
  exists m0, m1, m. do 3 (split; [assumption|]). split; [congruence|]. split; [congruence|].
  intros k x y Hx Hy.
  assert (Hk : k < global_size (fs_space test) * global_size (fs_space trial)) by (rewrite <- L0; apply nth_error_Some; congruence).
  destruct (position_split _ _ k Hk) as (i & j & Hi & Hj & ->). rewrite H0 in Hx by auto. rewrite H1 in Hy by auto. rewrite H by auto.
  injection Hx as <-. injection Hy as <-. f_equal. rewrite <- matrix_add. apply matrix_ext. intros t s a b Ht Hs.
  destruct (pair_value_family _ _ _ _ _ _ _ _ _ _ (V t s a b Ht Hs)) as (F & HF & Add & _).
  rewrite (pair_value_unique S X _ deg pts test trial t s a b _ _ (V t s a b Ht Hs) (HF (Sum f g))).
  rewrite (pair_value_unique S X _ deg pts test trial t s a b _ _ (V0 t s a b Ht Hs) (HF f)).
  rewrite (pair_value_unique S X _ deg pts test trial t s a b _ _ (V1 t s a b Ht Hs) (HF g)). apply Add.
Qed.

Theorem dense_multiple rt wmod O c f o deg pts ct test trial :
  legal_runtime (s_add S) rt -> dense_setting X wmod (with_integrand O (TimesScalar c f)) o deg pts ct test trial ->
  exists m0 m,
    assemble S X rt wmod (with_integrand O f) o trial test = Ok m0 /\
    assemble S X rt wmod (with_integrand O (TimesScalar c f)) o trial test = Ok m /\
    m = map (s_mul S c) m0.
Proof.
  intros L D.
  assert (D0 : dense_setting X wmod (with_integrand O f) o deg pts ct test trial) by (eapply fitting_part; [| |exact D]; cbn; lia).
  destruct (assembled rt wmod _ o deg pts ct test trial L D) as (m & val & E & Ll & V & H).
  destruct (assembled rt wmod _ o deg pts ct test trial L D0) as (m0 & val0 & E0 & L0 & V0 & H0).
  exists m0, m. do 2 (split; [assumption|]). apply nth_error_ext. intros k. rewrite nth_error_map.
  destruct (lt_dec k (global_size (fs_space test) * global_size (fs_space trial))) as [Hk|Hk].
  - destruct (position_split _ _ k Hk) as (i & j & Hi & Hj & ->). rewrite H, H0 by auto. cbn [option_map]. f_equal.
    rewrite <- matrix_mul. apply matrix_ext. intros t s a b Ht Hs.
    destruct (pair_value_family _ _ _ _ _ _ _ _ _ _ (V t s a b Ht Hs)) as (F & HF & _ & Mul).
    rewrite (pair_value_unique S X _ deg pts test trial t s a b _ _ (V t s a b Ht Hs) (HF (TimesScalar c f))).
    rewrite (pair_value_unique S X _ deg pts test trial t s a b _ _ (V0 t s a b Ht Hs) (HF f)). apply Mul.
  - rewrite (proj2 (nth_error_None m k)) by lia. rewrite (proj2 (nth_error_None m0 k)) by lia. reflexivity.
Qed.

(** ** The singular part *)

Lemma entry_list_map {A : Type} (td sd : list nat) (f : nat -> nat -> A) (h : A -> T) :
  entry_list td sd (fun a b => h (f a b)) = map (fun e => (fst e, h (snd e))) (entry_list td sd f).
Proof.
  unfold entry_list. induction (enumerate sd) as [|bj l IH]; cbn [flat_map map]; [reflexivity|].
  rewrite map_app, IH, map_map. reflexivity.
Qed.

Lemma In_entry_list_snd {A : Type} (td sd : list nat) (f : nat -> nat -> A) e : In e (entry_list td sd f) -> exists a b, snd e = f a b.
Proof.
  unfold entry_list. intros H. apply in_flat_map in H. destruct H as (bj & _ & H). apply in_map_iff in H. destruct H as (ai & <- & _). cbn. eauto.
Qed.

Lemma touching_family (O : operator T R) deg test trial p : exists E : list (nat * nat * (integrand T -> T)),
  (forall f, touching_triplets S X (with_integrand O f) deg test trial p = map (fun e => (fst e, snd e f)) E) /\
  forall e, In e E -> linear (snd e).
Proof.
  unfold touching_triplets. destruct (get_singular_quadrature_rule _ _ _ _ _) as [q| | |]; try (exists []; split; [reflexivity|intros e []]).
  unfold pair_triplets. set (t := g_ctype (fs_grid test) (fst p)). set (s := g_ctype (fs_grid test) (snd p)).
  set (F := fun a b => fun f => pairwise_entry S f (kn_value (op_kernel O))
      (ev_cell (geometry_map X (fs_grid test) t (pq_test q)) (fst p)) (ev_cell (geometry_map X (fs_grid test) s (pq_trial q)) (snd p))
      (fun d p b => fs_basis test t (pq_test q) d p b 0) (fun d p b => fs_basis trial s (pq_trial q) d p b 0) (pq_weights q) a b).
  exists (map (fun e => (global_of test (fst (fst e)), global_of trial (snd (fst e)), snd e))
    (entry_list (dofs_at test (fst p)) (dofs_at trial (snd p)) F)). split.
  - intros f. rewrite map_map. cbn [with_integrand op_integrand op_kernel].
    change (pairwise_entry S f _ _ _ _ _ _) with (fun a b => (fun h => h f) (F a b)).
    rewrite (entry_list_map _ _ F (fun h => h f)). rewrite map_map. reflexivity.
  - intros e He. apply in_map_iff in He. destruct He as (x & <- & Hx). apply In_entry_list_snd in Hx. destruct Hx as (a & b & Ex).
    cbn [snd]. rewrite Ex. apply pairwise_linear.
Qed.

Lemma all_family (O : operator T R) deg test trial st : exists E : list (nat * nat * (integrand T -> T)),
  (forall f, all_triplets S X (with_integrand O f) deg test trial st = map (fun e => (fst e, snd e f)) E) /\
  forall e, In e E -> linear (snd e).
Proof.
  unfold all_triplets. induction (pair_order st (fs_grid test)) as [|p l IH]; cbn [flat_map].
  - exists []. split; [reflexivity|intros e []].
  - destruct IH as (E & HE & LE). destruct (touching_family O deg test trial p) as (E' & HE' & LE'). exists (E' ++ E). split.
    + intros f. rewrite HE', HE, map_app. reflexivity.
    + intros e He. apply in_app_or in He. destruct He; auto.
Qed.

Lemma singular_family rt wmod O g o deg test trial :
  legal_runtime (s_add S) rt -> singular_setting X wmod (with_integrand O g) o deg test trial ->
  exists E : list (nat * nat * (integrand T -> T)), (forall e, In e E -> linear (snd e)) /\
    forall f, kernel_used f <= kernel_used g -> derivs_used f <= derivs_used g ->
    exists m, assemble_singular_part S X rt wmod (with_integrand O f) o (shape_of test trial) trial test = Ok m /\
      sm_rows m = map (fun e => fst (fst e)) E /\ sm_cols m = map (fun e => snd (fst e)) E /\ sm_data m = map (fun e => snd e f) E /\
      sm_shape m = shape_of test trial.
Proof.
  intros L D. destruct (singular_part_values S X rt wmod _ o deg test trial L D) as (st & m & Est & _).
  destruct (all_family O deg test trial st) as (E & HE & LE). exists E. split; auto. intros f Kf Uf.
  assert (D' := fitting_part_singular O f g wmod o deg test trial Kf Uf D).
  destruct (singular_part_values S X rt wmod _ o deg test trial L D') as (st' & m' & Est' & Em & E1 & E2 & E3 & E4).
  assert (st' = st) by (change (make_rule X (with_integrand O g) trial test) with (make_rule X (with_integrand O f) trial test) in Est; congruence).
  subst st'. exists m'. split; auto. rewrite E1, E2, E3, HE, !map_map. auto.
Qed.

Theorem singular_sum rt wmod O f g o deg test trial :
  legal_runtime (s_add S) rt -> singular_setting X wmod (with_integrand O (Sum f g)) o deg test trial ->
  exists m0 m1 m,
    assemble_singular_part S X rt wmod (with_integrand O f) o (shape_of test trial) trial test = Ok m0 /\
    assemble_singular_part S X rt wmod (with_integrand O g) o (shape_of test trial) trial test = Ok m1 /\
    assemble_singular_part S X rt wmod (with_integrand O (Sum f g)) o (shape_of test trial) trial test = Ok m /\
    sm_rows m0 = sm_rows m /\ sm_rows m1 = sm_rows m /\ sm_cols m0 = sm_cols m /\ sm_cols m1 = sm_cols m /\
    entrywise (s_add S) (sm_data m0) (sm_data m1) (sm_data m).
Proof.
  intros L D. destruct (singular_family rt wmod O _ o deg test trial L D) as (E & Li & H).
  destruct (H f) as (m0 & A0 & B0 & C0 & D0 & _); [cbn; lia|cbn; lia|].
  destruct (H g) as (m1 & A1 & B1 & C1 & D1 & _); [cbn; lia|cbn; lia|].
  destruct (H (Sum f g)) as (m & A & B & C & D' & _); auto.
  exists m0, m1, m. do 3 (split; [assumption|]). do 4 (split; [congruence|]).
  unfold entrywise. rewrite D0, D1, D', !map_length. split; auto. split; auto. intros k x y Hx Hy.
  rewrite nth_error_map in *. destruct (nth_error E k) as [e|] eqn:Ee; [|discriminate]. cbn [option_map] in *.
  injection Hx as <-. injection Hy as <-. f_equal. apply (Li e). eapply nth_error_In; eauto.
Qed.

Theorem singular_multiple rt wmod O c f o deg test trial :
  legal_runtime (s_add S) rt -> singular_setting X wmod (with_integrand O (TimesScalar c f)) o deg test trial ->
  exists m0 m,
    assemble_singular_part S X rt wmod (with_integrand O f) o (shape_of test trial) trial test = Ok m0 /\
    assemble_singular_part S X rt wmod (with_integrand O (TimesScalar c f)) o (shape_of test trial) trial test = Ok m /\
    sm_rows m = sm_rows m0 /\ sm_cols m = sm_cols m0 /\ sm_data m = map (s_mul S c) (sm_data m0).
Proof.
  intros L D. destruct (singular_family rt wmod O _ o deg test trial L D) as (E & Li & H).
  destruct (H f) as (m0 & A0 & B0 & C0 & D0 & _); [cbn; lia|cbn; lia|].
  destruct (H (TimesScalar c f)) as (m & A & B & C & D' & _); auto.
  exists m0, m. do 2 (split; [assumption|]). do 2 (split; [congruence|]). rewrite D', D0, map_map. apply map_ext_in. intros e He. now apply Li.
Qed.

(** The Helmholtz hypersingular operator. *)
Theorem helmholtz_hypersingular_split rt wmod (G : R -> green) k o deg pts ct test trial :
  exact_cast S -> legal_runtime (s_add S) rt -> dense_setting X wmod (helmholtz_hypersingular S G k) o deg pts ct test trial ->
  exists curl_part normal_part m,
    assemble S X rt wmod (laplace_hypersingular (G k)) o trial test = Ok curl_part /\
    assemble S X rt wmod (mkOperator HypersingularNormalNormal (mkKernel ValueDeriv (G k)) 4 1) o trial test = Ok normal_part /\
    assemble S X rt wmod (helmholtz_hypersingular S G k) o trial test = Ok m /\
    entrywise (fun x y => x -! s_cast S k *! s_cast S k *! y) curl_part normal_part m.
Proof.
  intros (Cm & Cn) L D. set (O := mkOperator (@SingleLayer T) (mkKernel ValueDeriv (G k)) 4 1).
  change (helmholtz_hypersingular S G k) with (with_integrand O (Sum HypersingularCurlCurl
    (TimesScalar (s_cast S (r_neg S (r_mul S k k))) HypersingularNormalNormal))) in *.
  change (laplace_hypersingular (G k)) with (with_integrand O HypersingularCurlCurl).
  change (mkOperator HypersingularNormalNormal (mkKernel ValueDeriv (G k)) 4 1) with (with_integrand O HypersingularNormalNormal).
  destruct (dense_sum rt wmod O _ _ o deg pts ct test trial L D) as (m0 & m1 & m & E0 & E1 & E & L0 & L1 & H).
  assert (D1 : dense_setting X wmod (with_integrand O (TimesScalar (s_cast S (r_neg S (r_mul S k k))) HypersingularNormalNormal)) o deg pts ct test trial)
    by (eapply fitting_part; [| |exact D]; cbn; lia).
  destruct (dense_multiple rt wmod O _ _ o deg pts ct test trial L D1) as (m2 & m1' & E2 & E1' & Em).
  replace m1' with m1 in Em by congruence. exists m0, m2, m. do 3 (split; [assumption|]).
  assert (L2 : length m1 = length m2) by (rewrite Em; apply map_length).
  split; auto. split; [congruence|]. intros i x y Hx Hy.
  assert (Hy' : nth_error m1 i = Some (s_cast S (r_neg S (r_mul S k k)) *! y)) by (rewrite Em, nth_error_map, Hy; reflexivity).
  rewrite (H i x _ Hx Hy'). f_equal. rewrite Cn, Cm. ring.
Qed.

End Algebra.
