(** * The matrix of a space from the matrix of a larger space *)
From Coq Require Import Ring_theory Ring.
From Verif Require Import Base BaseFacts Topology TopologyFacts DofMap DofMapFacts SpecDof DofMapResults DofExamples Process Space SpecSpace Options Batch SpecBatch
  Adjacency SpecAdjacency Scalar Integrand CellPair Operators SpecLocal LocalFacts LocalResults Interleave Assembly SpecAssembly
  AssemblyFacts AssemblySingular AssemblyDense AssemblyExact AssemblyResults SpecAlgebra AlgebraFacts AlgebraResults
  SpecDistributed DistributedFacts DistributedResults SpecBroken BrokenResults SpecGalerkin.

Section Forms.
Context {T R : Type} (S : scalar T R) (one : T) (RT : ring_theory (s_zero S) one (s_add S) (s_mul S) (s_sub S) (s_neg S) eq).
Context (inv : T -> T) (Hdiv : forall a b, s_div S a b = s_mul S a (inv b)).
Context (X : externals R).
Add Ring scalar_ring : RT.
Local Notation "a +! b" := (s_add S a b) (at level 50, left associativity).
Local Notation "a *! b" := (s_mul S a b) (at level 40, left associativity).

(** ** The integrands are bilinear *)

Lemma integrand_ext f k phi phi' psi psi' (x : cell_map R) p y q : (forall d, d < 3 -> phi d = phi' d) -> (forall d, d < 3 -> psi d = psi' d) ->
  integrand_value S f k phi psi x p y q = integrand_value S f k phi' psi' x p y q.
Proof.
  intros H H'. induction f; cbn [integrand_value]; unfold dot, curl; rewrite ?H, ?H' by lia; try reflexivity; congruence.
Qed.

Lemma integrand_add_test f k phi phi' psi (x : cell_map R) p y q :
  integrand_value S f k (fun d => phi d +! phi' d) psi x p y q = integrand_value S f k phi psi x p y q +! integrand_value S f k phi' psi x p y q.
Proof. induction f; cbn [integrand_value]; rewrite ?Hdiv; unfold dot, curl; rewrite ?IHf1, ?IHf2, ?IHf; ring. Qed.
Lemma integrand_mul_test f k c phi psi (x : cell_map R) p y q :
  integrand_value S f k (fun d => c *! phi d) psi x p y q = c *! integrand_value S f k phi psi x p y q.
Proof. induction f; cbn [integrand_value]; rewrite ?Hdiv; unfold dot, curl; rewrite ?IHf1, ?IHf2, ?IHf; ring. Qed.
Lemma integrand_add_trial f k phi psi psi' (x : cell_map R) p y q :
  integrand_value S f k phi (fun d => psi d +! psi' d) x p y q = integrand_value S f k phi psi x p y q +! integrand_value S f k phi psi' x p y q.
Proof. induction f; cbn [integrand_value]; rewrite ?Hdiv; unfold dot, curl; rewrite ?IHf1, ?IHf2, ?IHf; ring. Qed.
Lemma integrand_mul_trial f k c phi psi (x : cell_map R) p y q :
  integrand_value S f k phi (fun d => c *! psi d) x p y q = c *! integrand_value S f k phi psi x p y q.
Proof. induction f; cbn [integrand_value]; rewrite ?Hdiv; unfold dot, curl; rewrite ?IHf1, ?IHf2, ?IHf; ring. Qed.

Lemma integrand_total_test {A} f k (l : list A) (c : A -> T) u phi psi (x : cell_map R) p y q :
  (forall d, d < 3 -> phi d = total S l (fun z => c z *! u z d)) ->
  integrand_value S f k phi psi x p y q = total S l (fun z => c z *! integrand_value S f k (u z) psi x p y q).
Proof.
  intros H. rewrite (integrand_ext f k phi (fun d => total S l (fun z => c z *! u z d)) psi psi) by auto. clear H phi.
  induction l as [|z l IH].
  - rewrite (integrand_ext f k _ (fun d => s_zero S *! s_zero S) psi psi); auto.
    + rewrite integrand_mul_test. unfold total; cbn. ring.
    + intros d _. unfold total; cbn. ring.
  - rewrite !(total_cons S), <- IH, <- integrand_mul_test, <- integrand_add_test. apply integrand_ext; auto.
Qed.
Lemma integrand_total_trial {A} f k (l : list A) (c : A -> T) u phi psi (x : cell_map R) p y q :
  (forall d, d < 3 -> psi d = total S l (fun z => c z *! u z d)) ->
  integrand_value S f k phi psi x p y q = total S l (fun z => c z *! integrand_value S f k phi (u z) x p y q).
Proof.
  intros H. rewrite (integrand_ext f k phi phi psi (fun d => total S l (fun z => c z *! u z d))) by auto. clear H psi.
  induction l as [|z l IH].
  - rewrite (integrand_ext f k phi phi _ (fun d => s_zero S *! s_zero S)); auto.
    + rewrite integrand_mul_trial. unfold total; cbn. ring.
    + intros d _. unfold total; cbn. ring.
  - rewrite !(total_cons S), <- IH, <- integrand_mul_trial, <- integrand_add_trial. apply integrand_ext; auto.
Qed.

(** ** The values of a pair of cells are bilinear *)

(** Functions on a cell: points, derivative, number of the point. *)
Definition cell_function : Type := list R -> nat -> nat -> T.
Definition combination {A} (l : list A) (c : A -> T) (u : A -> cell_function) (v : cell_function) : Prop :=
  forall points d p, d < 3 -> 2 * (p + 1) <= length points -> v points d p = total S l (fun z => c z *! u z points d p).

Record bilinear (B : cell_function -> cell_function -> T) : Prop := {
  bi_test : forall A (l : list A) c u v w, combination l c u v -> B v w = total S l (fun z => c z *! B (u z) w);
  bi_trial : forall A (l : list A) c u v w, combination l c u v -> B w v = total S l (fun z => c z *! B w (u z))
}.

Definition as_basis (u : cell_function) (points : list R) : @basis T := fun d p _ => u points d p.

Lemma tensor_bilinear f G (x y : cell_map R) pt ps wt ws : length pt = 2 * length wt -> length ps = 2 * length ws ->
  bilinear (fun u v => tensor_entry S f G x y (as_basis u pt) (as_basis v ps) wt ws 0 0).
Proof.
  intros Lt Ls. assert (In' : forall (w : list R) pw, In pw (enumerate w) -> fst pw < length w).
  { intros w [a b] H. apply In_enumerate in H. apply nth_error_Some. cbn in *. congruence. }
  split; intros A l c u v w H; rewrite (tensor_total S one RT).
  - rewrite (total_ext S l _ (fun z => total S (enumerate wt) (fun pw => total S (enumerate ws) (fun qw =>
      c z *! tensor_term S f G x y (as_basis (u z) pt) (as_basis w ps) 0 0 pw qw)))).
    + symmetry. rewrite (total_swap S one RT). apply total_ext. intros pw Hp. rewrite (total_swap S one RT). apply total_ext. intros qw Hq.
      symmetry. unfold tensor_term. rewrite (integrand_total_test f _ l c (fun z d => u z pt d (fst pw))).
      * rewrite <- (total_mul_r S one RT), <- (total_mul_r S one RT). apply total_ext. intros z _. unfold as_basis. ring.
      * intros d Hd. unfold as_basis. apply H; auto. apply In' in Hp. lia.
    + intros z _. rewrite (tensor_total S one RT), <- (total_mul S one RT). apply total_ext. intros pw _. now rewrite <- (total_mul S one RT).
  - rewrite (total_ext S l _ (fun z => total S (enumerate wt) (fun pw => total S (enumerate ws) (fun qw =>
      c z *! tensor_term S f G x y (as_basis w pt) (as_basis (u z) ps) 0 0 pw qw)))).
    + symmetry. rewrite (total_swap S one RT). apply total_ext. intros pw Hp. rewrite (total_swap S one RT). apply total_ext. intros qw Hq.
      symmetry. unfold tensor_term. rewrite (integrand_total_trial f _ l c (fun z d => u z ps d (fst qw))).
      * rewrite <- (total_mul_r S one RT), <- (total_mul_r S one RT). apply total_ext. intros z _. unfold as_basis. ring.
      * intros d Hd. unfold as_basis. apply H; auto. apply In' in Hq. lia.
    + intros z _. rewrite (tensor_total S one RT), <- (total_mul S one RT). apply total_ext. intros pw _. now rewrite <- (total_mul S one RT).
Qed.

Lemma pairwise_bilinear f G (x y : cell_map R) pt ps ws : length pt = 2 * length ws -> length ps = 2 * length ws ->
  bilinear (fun u v => pairwise_entry S f G x y (as_basis u pt) (as_basis v ps) ws 0 0).
Proof.
  intros Lt Ls. assert (In' : forall (w : list R) pw, In pw (enumerate w) -> fst pw < length w).
  { intros w [a b] H. apply In_enumerate in H. apply nth_error_Some. cbn in *. congruence. }
  split; intros A l c u v w H; rewrite (pairwise_total S one RT).
  - rewrite (total_ext S l _ (fun z => total S (enumerate ws) (fun pw => c z *! pairwise_term S f G x y (as_basis (u z) pt) (as_basis w ps) 0 0 pw))).
    + symmetry. rewrite (total_swap S one RT). apply total_ext. intros pw Hp.
      symmetry. unfold pairwise_term. rewrite (integrand_total_test f _ l c (fun z d => u z pt d (fst pw))).
      * rewrite <- (total_mul_r S one RT). apply total_ext. intros z _. unfold as_basis. ring.
      * intros d Hd. unfold as_basis. apply H; auto. apply In' in Hp. lia.
    + intros z _. rewrite (pairwise_total S one RT), <- (total_mul S one RT). reflexivity.
  - rewrite (total_ext S l _ (fun z => total S (enumerate ws) (fun pw => c z *! pairwise_term S f G x y (as_basis w pt) (as_basis (u z) ps) 0 0 pw))).
    + symmetry. rewrite (total_swap S one RT). apply total_ext. intros pw Hp.
      symmetry. unfold pairwise_term. rewrite (integrand_total_trial f _ l c (fun z d => u z ps d (fst pw))).
      * rewrite <- (total_mul_r S one RT). apply total_ext. intros z _. unfold as_basis. ring.
      * intros d Hd. unfold as_basis. apply H; auto. apply In' in Hp. lia.
    + intros z _. rewrite (pairwise_total S one RT), <- (total_mul S one RT). reflexivity.
Qed.

(** Basis function [a] of the reference cell. *)
Definition place (fs : fspace T R) (c a : nat) : cell_function := fun points d p => fs_basis fs (g_ctype (fs_grid fs) c) points d p a 0.

Lemma pair_form O deg pts test trial t s a b v : proper_rules X -> (g_id (fs_grid test) = g_id (fs_grid trial) -> fs_grid test = fs_grid trial) ->
  pair_value S X O deg pts test trial t s a b v ->
  exists B, bilinear B /\ forall test' trial' a' b', fs_grid test' = fs_grid test -> fs_grid trial' = fs_grid trial ->
    pair_value S X O deg pts test' trial' t s a' b' (B (place test' t a') (place trial' s b')).
Proof.
  intros Pr Sa [(C & p & k & d & q & A1 & A2 & A3 & A4 & _)|(C & q & r & A1 & A2 & _)].
  - destruct (pr_duffy _ Pr _ _ _ _ _ A4) as (L1 & L2). eexists. split; [apply (pairwise_bilinear (op_integrand O) (kn_value (op_kernel O))
      (x_geometry X (fs_grid test) (g_ctype (fs_grid test) t) (pq_test q) t) (x_geometry X (fs_grid test) (g_ctype (fs_grid test) s) (pq_trial q) s) _ _ (pq_weights q) L1 L2)|].
    intros test' trial' a' b' E E'. left. split; [unfold touching in *; now rewrite E, E'|]. unfold singular_value. rewrite E.
    exists p, k, d, q. repeat (split; [assumption|]). unfold place, as_basis. rewrite E, E', <- (Sa (proj1 C)). reflexivity.
  - destruct (pr_simplex _ Pr _ _ _ A1) as (L1 & L1'), (pr_simplex _ Pr _ _ _ A2) as (L2 & L2').
    eexists. split; [apply (tensor_bilinear (op_integrand O) (kn_value (op_kernel O))
      (x_geometry X (fs_grid test) (g_ctype (fs_grid test) t) (qd_points q) t) (x_geometry X (fs_grid trial) (g_ctype (fs_grid trial) s) (qd_points r) s)
      (qd_points q) (qd_points r) (qd_weights q) (qd_weights r)); lia|].
    intros test' trial' a' b' E E'. right. split; [unfold touching in *; now rewrite E, E'|]. unfold regular_value. rewrite E, E'.
    exists q, r. repeat (split; [assumption|]). unfold place, as_basis. rewrite E, E'. reflexivity.
Qed.

(** ** Matrices *)

Lemma zero_bilinear : bilinear (fun _ _ => s_zero S).
Proof. split; intros; symmetry; apply (total_zero S one RT); intros; ring. Qed.

Lemma form_entry B (test trial : fspace T R) t s i j : bilinear B ->
  total S (enumerate (dofs_at test t)) (fun ai => total S (enumerate (dofs_at trial s)) (fun bj =>
    if (snd ai =? i) && (snd bj =? j) then B (place test t (fst ai)) (place trial s (fst bj)) else s_zero S)) =
  B (restricted S test t i) (restricted S trial s j).
Proof.
  intros [B1 B2].
  rewrite (B1 _ (enumerate (dofs_at test t)) (fun ai => if snd ai =? i then one else s_zero S) (fun ai => place test t (fst ai))).
  - apply total_ext. intros ai _. rewrite (B2 _ (enumerate (dofs_at trial s)) (fun bj => if snd bj =? j then one else s_zero S) (fun bj => place trial s (fst bj))).
    + rewrite <- (total_mul S one RT). apply total_ext. intros bj _. destruct (snd ai =? i), (snd bj =? j); cbn [andb]; ring.
    + intros points d p _ _. unfold restricted. apply total_ext. intros bj _. unfold place. destruct (snd bj =? j); ring.
  - intros points d p _ _. unfold restricted. apply total_ext. intros ai _. unfold place. destruct (snd ai =? i); ring.
Qed.

Lemma matrix_projected P Q valc valf (test trial ftest ftrial : fspace T R) i j :
  contained S test ftest P -> contained S trial ftrial Q -> i < global_size (fs_space test) -> j < global_size (fs_space trial) ->
  (forall t s, t < ent_count (fs_grid test) 2 -> s < ent_count (fs_grid trial) 2 -> exists B, bilinear B /\
    (forall a b, valc t s a b = B (place test t a) (place trial s b)) /\ forall a b, valf t s a b = B (place ftest t a) (place ftrial s b)) ->
  matrix_entry S valc test trial i j =
  projected S P Q (global_size (fs_space ftest)) (global_size (fs_space ftrial)) (matrix_entry S valf ftest ftrial) i j.
Proof.
  intros (Eg & Ct) (Eg' & Cs) Hi Hj F. unfold projected.
  transitivity (total S (seq 0 (global_size (fs_space ftest))) (fun k => total S (seq 0 (global_size (fs_space ftrial))) (fun l =>
    total S (seq 0 (ent_count (fs_grid test) 2)) (fun t => total S (seq 0 (ent_count (fs_grid trial) 2)) (fun s =>
      P k i *! total S (enumerate (dofs_at ftest t)) (fun ai => total S (enumerate (dofs_at ftrial s)) (fun bj =>
        if (snd ai =? k) && (snd bj =? l) then valf t s (fst ai) (fst bj) else s_zero S)) *! Q l j))))).
  2:{ apply total_ext. intros k _. apply total_ext. intros l _. unfold matrix_entry. rewrite Eg, Eg'.
      rewrite <- (total_mul S one RT), <- (total_mul_r S one RT). apply total_ext. intros t _.
      rewrite <- (total_mul S one RT), <- (total_mul_r S one RT). apply total_ext. intros s _. reflexivity. }
  rewrite (total_swap3 S one RT). unfold matrix_entry. apply total_ext. intros t Ht. rewrite (total_swap3 S one RT). apply total_ext. intros s Hs.
  apply in_seq in Ht, Hs. destruct (F t s) as (B & Bi & Vc & Vf); [lia|lia|].
  transitivity (B (restricted S test t i) (restricted S trial s j)).
  - rewrite <- (form_entry B test trial t s i j Bi). apply total_ext. intros ai _. apply total_ext. intros bj _. now rewrite Vc.
  - rewrite (bi_test _ Bi _ (seq 0 (global_size (fs_space ftest))) (fun k => P k i) (fun k => restricted S ftest t k)).
    + apply total_ext. intros k _. rewrite (bi_trial _ Bi _ (seq 0 (global_size (fs_space ftrial))) (fun l => Q l j) (fun l => restricted S ftrial s l)).
      * rewrite <- (total_mul S one RT). apply total_ext. intros l _. rewrite <- (form_entry B ftest ftrial t s k l Bi).
        match goal with |- _ *! (_ *! ?x) = _ *! ?y *! _ => assert (Ev : y = x) end; [|rewrite Ev; ring].
        apply total_ext. intros ai _. apply total_ext. intros bj _. now rewrite Vf.
      * intros points d p Hd Hp. apply Cs; auto. lia.
    + intros points d p Hd Hp. apply Ct; auto. lia.
Qed.

Theorem projected_matrix rt wmod (O : operator T R) o deg pts ct test trial ftest ftrial P Q :
  legal_runtime (s_add S) rt -> dense_setting X wmod O o deg pts ct test trial -> dense_setting X wmod O o deg pts ct ftest ftrial ->
  contained S test ftest P -> contained S trial ftrial Q ->
  exists m fm e, assemble S X rt wmod O o trial test = Ok m /\ assemble S X rt wmod O o ftrial ftest = Ok fm /\
    (forall k l, k < global_size (fs_space ftest) -> l < global_size (fs_space ftrial) ->
      nth_error fm (k + global_size (fs_space ftest) * l) = Some (e k l)) /\
    forall i j, i < global_size (fs_space test) -> j < global_size (fs_space trial) ->
      nth_error m (i + global_size (fs_space test) * j) =
        Some (projected S P Q (global_size (fs_space ftest)) (global_size (fs_space ftrial)) e i j).
Proof.
  intros L D D' Ct Cs.
  destruct (assembled S one RT X rt wmod O o deg pts ct test trial L D) as (m & val & E & _ & V & H).
  destruct (assembled S one RT X rt wmod O o deg pts ct ftest ftrial L D') as (m' & val' & E' & _ & V' & H').
  exists m, m', (matrix_entry S val' ftest ftrial). do 2 (split; [assumption|]). split; [exact H'|].
  intros i j Hi Hj. rewrite (H i j Hi Hj). f_equal. apply matrix_projected; auto. intros t s Ht Hs.
  destruct (pair_form O deg pts test trial t s 0 0 (val t s 0 0) (dn_proper _ _ _ _ _ _ _ _ _ D) (dn_same _ _ _ _ _ _ _ _ _ D) (V t s 0 0 Ht Hs)) as (B & Bi & HB).
  exists B. split; [exact Bi|]. split; intros a b.
  - apply (pair_value_unique S X O deg pts test trial t s a b); auto.
  - apply (pair_value_unique S X O deg pts ftest ftrial t s a b); [|apply HB; [apply Ct|apply Cs]].
    apply V'; [now rewrite (proj1 Ct)|now rewrite (proj1 Cs)].
Qed.

Theorem projected_near rt wmod (O : operator T R) o deg pts ct test trial ftest ftrial P Q :
  legal_runtime (s_add S) rt -> dense_setting X wmod O o deg pts ct test trial -> dense_setting X wmod O o deg pts ct ftest ftrial ->
  contained S test ftest P -> contained S trial ftrial Q ->
  exists m fm,
    assemble_singular_part S X rt wmod O o (shape_of test trial) trial test = Ok m /\
    assemble_singular_part S X rt wmod O o (shape_of ftest ftrial) ftrial ftest = Ok fm /\
    forall i j, i < global_size (fs_space test) -> j < global_size (fs_space trial) -> sparse_entry S m i j =
      projected S P Q (global_size (fs_space ftest)) (global_size (fs_space ftrial)) (sparse_entry S fm) i j.
Proof.
  intros L D D' Ct Cs.
  destruct (near_entries S one RT X rt wmod O o deg pts ct test trial L D) as (m & val & E & V & H).
  destruct (near_entries S one RT X rt wmod O o deg pts ct ftest ftrial L D') as (m' & val' & E' & V' & H').
  exists m, m'. do 2 (split; [assumption|]). intros i j Hi Hj. unfold sparse_entry at 1. rewrite H.
  rewrite (matrix_projected P Q _ (fun t s a b => if touchb ftest ftrial t s then val' t s a b else s_zero S) test trial ftest ftrial i j); auto.
  - unfold projected. apply total_ext. intros k _. apply total_ext. intros l _. unfold sparse_entry. now rewrite H'.
  - intros t s Ht Hs.
    assert (Et : touchb ftest ftrial t s = touchb test trial t s) by (unfold touchb; now rewrite (proj1 Ct), (proj1 Cs)). rewrite Et.
    destruct (touchb test trial t s); [|exists (fun _ _ => s_zero S); split; [apply zero_bilinear|split; reflexivity]].
    destruct (pair_form O deg pts test trial t s 0 0 (val t s 0 0) (dn_proper _ _ _ _ _ _ _ _ _ D) (dn_same _ _ _ _ _ _ _ _ _ D) (V t s 0 0 Ht Hs)) as (B & Bi & HB).
    exists B. split; [exact Bi|]. split; intros a b.
    + apply (pair_value_unique S X O deg pts test trial t s a b); auto.
    + apply (pair_value_unique S X O deg pts ftest ftrial t s a b); [|apply HB; [apply Ct|apply Cs]].
      apply V'; [now rewrite (proj1 Ct)|now rewrite (proj1 Cs)].
Qed.

End Forms.

(** ** Spaces contained in others *)

Section Instances.
Context {T R : Type} (S : scalar T R) (one : T) (RT : ring_theory (s_zero S) one (s_add S) (s_mul S) (s_sub S) (s_neg S) eq).
Add Ring scalar_ring' : RT.
Local Notation "a +! b" := (s_add S a b) (at level 50, left associativity).
Local Notation "a *! b" := (s_mul S a b) (at level 40, left associativity).

Lemma contained_refl (fs : fspace T R) : contained S fs fs (fun k i => if k =? i then one else s_zero S).
Proof.
  split; [reflexivity|]. intros c i points d p Hc Hi _ _.
  rewrite <- (total_pick S one RT (global_size (fs_space fs)) i (restricted S fs c i points d p)) at 1 by auto.
  apply total_ext. intros k _. rewrite Nat.eqb_sym. destruct (Nat.eqb_spec k i) as [->|]; ring.
Qed.

Lemma contained_trans (A B C : fspace T R) P Q : contained S A B P -> contained S B C Q ->
  contained S A C (fun k i => total S (seq 0 (global_size (fs_space B))) (fun j => Q k j *! P j i)).
Proof.
  intros (E & H) (E' & H'). split; [congruence|]. intros c i points d p Hc Hi Hd Hp. rewrite H by auto.
  rewrite (total_ext S _ _ (fun j => total S (seq 0 (global_size (fs_space C))) (fun k => Q k j *! P j i *! restricted S C c k points d p))).
  - rewrite (total_swap S one RT). apply total_ext. intros k _. now rewrite (total_mul_r S one RT).
  - intros j Hj. apply in_seq in Hj. rewrite H' by (rewrite ?E; auto; lia). rewrite <- (total_mul S one RT). apply total_ext. intros k _. ring.
Qed.

(** A sum over the functions of a cell by way of the numbers. *)
Lemma restricted_sum (fs : fspace T R) c (w : nat -> T) points d p :
  (forall i, In i (dofs_at fs c) -> i < global_size (fs_space fs)) ->
  total S (seq 0 (global_size (fs_space fs))) (fun k => w k *! restricted S fs c k points d p) =
  total S (enumerate (dofs_at fs c)) (fun ak => w (snd ak) *! fs_basis fs (g_ctype (fs_grid fs) c) points d p (fst ak) 0).
Proof.
  intros B. unfold restricted.
  rewrite (total_ext S _ _ (fun k => total S (enumerate (dofs_at fs c)) (fun ak => if snd ak =? k then w k *! fs_basis fs (g_ctype (fs_grid fs) c) points d p (fst ak) 0 else s_zero S))).
  - rewrite (total_swap S one RT). apply total_ext. intros [a k'] Ha. cbn [fst snd].
    rewrite <- (total_pick S one RT (global_size (fs_space fs)) k' (w k' *! _)).
    + apply total_ext. intros k _. destruct (Nat.eqb_spec k' k) as [->|]; reflexivity.
    + apply B. apply In_enumerate in Ha. eapply nth_error_In; eauto.
  - intros k _. rewrite <- (total_mul S one RT). apply total_ext. intros [a k'] _. cbn [fst snd]. destruct (k' =? k); ring.
Qed.

Lemma broken_contained (cont disc : fspace T R) p : serial_space disc -> broken cont disc -> glues cont disc p ->
  contained S cont disc (fun k i => if p k =? i then one else s_zero S).
Proof.
  intros Sd B (M & _ & _). split; [apply (bk_grid _ _ B)|]. intros c i points d q Hc Hi _ _.
  rewrite (restricted_sum disc c (fun k => if p k =? i then one else s_zero S)).
  - unfold restricted. rewrite M by auto. rewrite enumerate_map', (total_map S). apply total_ext. intros [a k] _. cbn [fst snd].
    rewrite (bk_basis _ _ B), (bk_grid _ _ B). destruct (p k =? i); ring.
  - intros k Hk. apply (serial_lt disc Sd c k); auto. now rewrite (bk_grid _ _ B).
Qed.

Lemma total_members l n (f : nat -> T) : NoDup l -> (forall k, In k l -> k < n) ->
  total S (seq 0 n) (fun k => if memb k l then f k else s_zero S) = total S l f.
Proof.
  intros Nd B. rewrite <- (total_filter S one RT). apply (total_perm S one RT). apply NoDup_Permutation; auto.
  - apply NoDup_filter, seq_NoDup.
  - intros k. rewrite filter_In, in_seq, memb_In. split; [tauto|]. intros H. specialize (B k H). split; auto. lia.
Qed.

Lemma serial_distinct (fs : fspace T R) c : serial_space fs -> c < ent_count (fs_grid fs) 2 -> NoDup (dofs_at fs c).
Proof.
  intros Sp Hc. destruct (cell_dofs_distinct_in_range _ _ _ _ c (ss_grid _ Sp) (ss_family _ Sp) (ss_dofs _ Sp) Hc) as (l & Hl & _ & Nd & _).
  unfold dofs_at. unfold has_cell_dofs in Hl. now rewrite Hl.
Qed.

Lemma serial_disjoint (fs : fspace T R) c c' k : serial_space fs -> interior_family (g_types (fs_grid fs) 2) (fs_family fs) ->
  c < ent_count (fs_grid fs) 2 -> c' < ent_count (fs_grid fs) 2 -> In k (dofs_at fs c) -> In k (dofs_at fs c') -> c = c'.
Proof.
  intros Sp I Hc Hc' H H'. rewrite dofs_at_row in H, H' by auto.
  eapply (interior_disjoint 0 _ _ _ (ss_grid _ Sp) (ss_family _ Sp) (ss_dofs _ Sp)); eauto.
Qed.

Lemma same_cell_true (coarse fine : fspace T R) k i : same_cell coarse fine k i = true <->
  exists c, c < ent_count (fs_grid coarse) 2 /\ In i (dofs_at coarse c) /\ In k (dofs_at fine c).
Proof.
  unfold same_cell. rewrite existsb_exists. split; intros (c & H).
  - rewrite in_seq, andb_true_iff, !memb_In in H. exists c. split; [lia|tauto].
  - exists c. rewrite in_seq, andb_true_iff, !memb_In. split; [lia|tauto].
Qed.

Lemma constants_contained (coarse fine : fspace T R) : serial_space coarse -> serial_space fine -> fs_grid fine = fs_grid coarse ->
  constants S one coarse -> adds_to_one S one fine -> interior_family (g_types (fs_grid fine) 2) (fs_family fine) ->
  contained S coarse fine (fun k i => if same_cell coarse fine k i then one else s_zero S).
Proof.
  intros Sc Sf Eg Co Ad If. split; [exact Eg|]. intros c i points d p Hc Hi Hd _.
  assert (Ty : In (g_ctype (fs_grid coarse) c) (g_types (fs_grid coarse) 2)) by (apply wf_ctype; [apply Sc|auto]).
  assert (Hcf : c < ent_count (fs_grid fine) 2) by now rewrite Eg.
  rewrite (restricted_sum fine c (fun k => if same_cell coarse fine k i then one else s_zero S)) by (intros k Hk; now apply (serial_lt fine Sf c k)).
  pose proof (dofs_at_dim coarse c Sc Hc) as L1. rewrite (co_dim _ _ _ Co) in L1 by auto.
  destruct (dofs_at coarse c) as [|i' [|? ?]] eqn:E1; cbn in L1; try discriminate.
  unfold restricted. rewrite E1. change (enumerate [i']) with [(0, i')]. rewrite total_cons, total_nil. cbn [fst snd].
  destruct (Nat.eqb_spec i' i) as [->|N].
  - rewrite (total_ext S _ _ (fun ak => fs_basis fine (g_ctype (fs_grid fine) c) points d p (fst ak) 0)).
    + rewrite (total_enumerate S (dofs_at fine c) (fun a => fs_basis fine (g_ctype (fs_grid fine) c) points d p a 0)), (dofs_at_dim fine c Sf Hcf).
      destruct (Ad (g_ctype (fs_grid fine) c) points p) as (A0 & A1); [now rewrite Eg|].
      destruct d as [|d].
      * rewrite A0, (co_value _ _ _ Co). ring.
      * rewrite A1 by lia. rewrite (co_derivs _ _ _ Co) by lia. ring.
    + intros [a k] Ha. cbn [fst snd]. replace (same_cell coarse fine k i) with true; [ring|]. symmetry. apply same_cell_true. exists c.
      split; auto. rewrite E1. split; [now left|]. apply In_enumerate in Ha. eapply nth_error_In; eauto.
  - rewrite (total_zero S one RT (enumerate (dofs_at fine c))); [ring|]. intros [a k] Ha. cbn [fst snd].
    destruct (same_cell coarse fine k i) eqn:E; [|ring]. exfalso. apply same_cell_true in E. destruct E as (c' & Hc' & H1 & H2).
    assert (c' = c) as ->.
    { apply (serial_disjoint fine c' c k); auto; [now rewrite Eg|]. apply In_enumerate in Ha. eapply nth_error_In; eauto. }
    rewrite E1 in H1. destruct H1 as [->|[]]. now apply N.
Qed.

(** Sums over blocks. *)
Lemma projected_blocks (test trial ftest ftrial : fspace T R) t s i j e :
  serial_space test -> serial_space trial -> serial_space ftest -> serial_space ftrial ->
  fs_grid ftest = fs_grid test -> fs_grid ftrial = fs_grid trial ->
  interior_family (g_types (fs_grid test) 2) (fs_family test) -> interior_family (g_types (fs_grid trial) 2) (fs_family trial) ->
  t < ent_count (fs_grid test) 2 -> s < ent_count (fs_grid trial) 2 -> In i (dofs_at test t) -> In j (dofs_at trial s) ->
  projected S (fun k i => if same_cell test ftest k i then one else s_zero S) (fun k i => if same_cell trial ftrial k i then one else s_zero S)
    (global_size (fs_space ftest)) (global_size (fs_space ftrial)) e i j =
  total S (dofs_at ftest t) (fun k => total S (dofs_at ftrial s) (fun l => e k l)).
Proof.
  intros St Ss Sf Sg Eg Eg' It Is Ht Hs Hi Hj.
  assert (M : forall (coarse fine : fspace T R) c i k, serial_space coarse -> interior_family (g_types (fs_grid coarse) 2) (fs_family coarse) ->
    c < ent_count (fs_grid coarse) 2 -> In i (dofs_at coarse c) -> same_cell coarse fine k i = memb k (dofs_at fine c)).
  { intros coarse fine c i0 k Sc Ic Hc H. apply eq_true_iff_eq. rewrite same_cell_true, memb_In. split.
    - intros (c' & Hc' & H1 & H2). now rewrite (serial_disjoint coarse c c' i0) by auto.
    - intros H1. exists c. auto. }
  unfold projected. rewrite <- (total_members (dofs_at ftest t) (global_size (fs_space ftest))).
  - apply total_ext. intros k _. rewrite (M test ftest t i k) by auto. destruct (memb k (dofs_at ftest t)).
    + rewrite <- (total_members (dofs_at ftrial s) (global_size (fs_space ftrial))).
      * apply total_ext. intros l _. rewrite (M trial ftrial s j l) by auto. destruct (memb l (dofs_at ftrial s)); ring.
      * apply serial_distinct; auto. now rewrite Eg'.
      * intros l Hl. apply (serial_lt ftrial Sg s l); auto. now rewrite Eg'.
    + apply (total_zero S one RT). intros l _. ring.
  - apply serial_distinct; auto. now rewrite Eg.
  - intros k Hk. apply (serial_lt ftest Sf t k); auto. now rewrite Eg.
Qed.

(** Prolongations with rows that add up to one keep the sum of all entries. *)
Lemma projected_total P Q n m rows cols e :
  (forall k, k < rows -> total S (seq 0 n) (P k) = one) -> (forall l, l < cols -> total S (seq 0 m) (Q l) = one) ->
  total S (seq 0 n) (fun i => total S (seq 0 m) (fun j => projected S P Q rows cols e i j)) =
  total S (seq 0 rows) (fun k => total S (seq 0 cols) (fun l => e k l)).
Proof.
  intros HP HQ.
  transitivity (total S (seq 0 n) (fun i => total S (seq 0 rows) (fun k => total S (seq 0 cols) (fun l => P k i *! e k l)))).
  - apply total_ext. intros i _. unfold projected. rewrite (total_swap S one RT). apply total_ext. intros k _. rewrite (total_swap S one RT).
    apply total_ext. intros l Hl. apply in_seq in Hl.
    rewrite (total_mul S one RT (seq 0 m) (P k i *! e k l) (Q l)). rewrite HQ by lia. ring.
  - rewrite (total_swap S one RT). apply total_ext. intros k Hk. apply in_seq in Hk. rewrite (total_swap S one RT). apply total_ext. intros l _.
    rewrite (total_mul_r S one RT (seq 0 n) (e k l) (P k)). rewrite HP by lia. ring.
Qed.
End Instances.

(** ** Exact arithmetic *)

Theorem exact_projected : forall (T R : Type) (S : scalar T R) (X : externals R) rt wmod (O : operator T R) o deg pts ct (test trial ftest ftrial : fspace T R) P Q,
  exact S -> legal_runtime (s_add S) rt -> dense_setting X wmod O o deg pts ct test trial -> dense_setting X wmod O o deg pts ct ftest ftrial ->
  contained S test ftest P -> contained S trial ftrial Q ->
  exists m fm e, assemble S X rt wmod O o trial test = Ok m /\ assemble S X rt wmod O o ftrial ftest = Ok fm /\
    (forall k l, k < global_size (fs_space ftest) -> l < global_size (fs_space ftrial) ->
      nth_error fm (k + global_size (fs_space ftest) * l) = Some (e k l)) /\
    forall i j, i < global_size (fs_space test) -> j < global_size (fs_space trial) ->
      nth_error m (i + global_size (fs_space test) * j) =
        Some (projected S P Q (global_size (fs_space ftest)) (global_size (fs_space ftrial)) e i j).
Proof. intros T R S X rt wmod O o deg pts ct test trial ftest ftrial P Q ((one & RT) & (inv & Hdiv)). exact (projected_matrix S one RT inv Hdiv X rt wmod O o deg pts ct test trial ftest ftrial P Q). Qed.

Theorem exact_projected_near : forall (T R : Type) (S : scalar T R) (X : externals R) rt wmod (O : operator T R) o deg pts ct (test trial ftest ftrial : fspace T R) P Q,
  exact S -> legal_runtime (s_add S) rt -> dense_setting X wmod O o deg pts ct test trial -> dense_setting X wmod O o deg pts ct ftest ftrial ->
  contained S test ftest P -> contained S trial ftrial Q ->
  exists m fm,
    assemble_singular_part S X rt wmod O o (global_size (fs_space test), global_size (fs_space trial)) trial test = Ok m /\
    assemble_singular_part S X rt wmod O o (global_size (fs_space ftest), global_size (fs_space ftrial)) ftrial ftest = Ok fm /\
    forall i j, i < global_size (fs_space test) -> j < global_size (fs_space trial) -> sparse_entry S m i j =
      projected S P Q (global_size (fs_space ftest)) (global_size (fs_space ftrial)) (sparse_entry S fm) i j.
Proof. intros T R S X rt wmod O o deg pts ct test trial ftest ftrial P Q ((one & RT) & (inv & Hdiv)). exact (projected_near S one RT inv Hdiv X rt wmod O o deg pts ct test trial ftest ftrial P Q). Qed.

(** The numbers of the coefficients of the spaces of continuous functions. *)
Theorem exact_blocks : forall (T R : Type) (S : scalar T R) (X : externals R) rt wmod (O : operator T R) o deg pts ct (test trial ftest ftrial : fspace T R) one,
  exact S -> (forall x, s_mul S one x = x) -> legal_runtime (s_add S) rt ->
  dense_setting X wmod O o deg pts ct test trial -> dense_setting X wmod O o deg pts ct ftest ftrial ->
  fs_grid ftest = fs_grid test -> fs_grid ftrial = fs_grid trial ->
  constants S one test -> constants S one trial -> adds_to_one S one ftest -> adds_to_one S one ftrial ->
  interior_family (g_types (fs_grid test) 2) (fs_family test) -> interior_family (g_types (fs_grid trial) 2) (fs_family trial) ->
  interior_family (g_types (fs_grid ftest) 2) (fs_family ftest) -> interior_family (g_types (fs_grid ftrial) 2) (fs_family ftrial) ->
  exists m fm e, assemble S X rt wmod O o trial test = Ok m /\ assemble S X rt wmod O o ftrial ftest = Ok fm /\
    (forall k l, k < global_size (fs_space ftest) -> l < global_size (fs_space ftrial) ->
      nth_error fm (k + global_size (fs_space ftest) * l) = Some (e k l)) /\
    forall t s i j, t < ent_count (fs_grid test) 2 -> s < ent_count (fs_grid trial) 2 -> In i (dofs_at test t) -> In j (dofs_at trial s) ->
      nth_error m (i + global_size (fs_space test) * j) =
        Some (total S (dofs_at ftest t) (fun k => total S (dofs_at ftrial s) (fun l => e k l))).
Proof.
  intros T R S X rt wmod O o deg pts ct test trial ftest ftrial one Ex One L D D' Eg Eg' C1 C2 A1 A2 I1 I2 I3 I4.
  assert (Ex' := Ex). destruct Ex' as ((u & RT) & _).
  assert (one = u) as ->. { rewrite <- (One u). symmetry. rewrite (Rmul_comm RT). apply (Rmul_1_l RT). }
  pose proof (dn_test _ _ _ _ _ _ _ _ _ D) as S1. pose proof (dn_trial _ _ _ _ _ _ _ _ _ D) as S2.
  pose proof (dn_test _ _ _ _ _ _ _ _ _ D') as S3. pose proof (dn_trial _ _ _ _ _ _ _ _ _ D') as S4.
  destruct (exact_projected T R S X rt wmod O o deg pts ct test trial ftest ftrial _ _ Ex L D D'
    (constants_contained S u RT test ftest S1 S3 Eg C1 A1 I3) (constants_contained S u RT trial ftrial S2 S4 Eg' C2 A2 I4)) as (m & fm & e & E & E' & H & H').
  exists m, fm, e. do 3 (split; [assumption|]). intros t s i j Ht Hs Hi Hj. rewrite H'.
  - f_equal. now apply projected_blocks.
  - now apply (serial_lt test S1 t i).
  - now apply (serial_lt trial S2 s j).
Qed.

Theorem exact_total : forall (T R : Type) (S : scalar T R) (X : externals R) rt wmod (O : operator T R) o deg pts ct (test trial ftest ftrial : fspace T R) P Q one,
  exact S -> (forall x, s_mul S one x = x) -> legal_runtime (s_add S) rt ->
  dense_setting X wmod O o deg pts ct test trial -> dense_setting X wmod O o deg pts ct ftest ftrial ->
  contained S test ftest P -> contained S trial ftrial Q ->
  (forall k, k < global_size (fs_space ftest) -> total S (seq 0 (global_size (fs_space test))) (P k) = one) ->
  (forall l, l < global_size (fs_space ftrial) -> total S (seq 0 (global_size (fs_space trial))) (Q l) = one) ->
  exists m fm c e, assemble S X rt wmod O o trial test = Ok m /\ assemble S X rt wmod O o ftrial ftest = Ok fm /\
    (forall i j, i < global_size (fs_space test) -> j < global_size (fs_space trial) ->
      nth_error m (i + global_size (fs_space test) * j) = Some (c i j)) /\
    (forall k l, k < global_size (fs_space ftest) -> l < global_size (fs_space ftrial) ->
      nth_error fm (k + global_size (fs_space ftest) * l) = Some (e k l)) /\
    total S (seq 0 (global_size (fs_space test))) (fun i => total S (seq 0 (global_size (fs_space trial))) (fun j => c i j)) =
    total S (seq 0 (global_size (fs_space ftest))) (fun k => total S (seq 0 (global_size (fs_space ftrial))) (fun l => e k l)).
Proof.
  intros T R S X rt wmod O o deg pts ct test trial ftest ftrial P Q one Ex One L D D' H H' HP HQ.
  assert (Ex' := Ex). destruct Ex' as ((u & RT) & _).
  assert (one = u) as ->. { rewrite <- (One u). symmetry. rewrite (Rmul_comm RT). apply (Rmul_1_l RT). }
  destruct (exact_projected T R S X rt wmod O o deg pts ct test trial ftest ftrial P Q Ex L D D' H H') as (m & fm & e & E & E' & K & K').
  exists m, fm, (projected S P Q (global_size (fs_space ftest)) (global_size (fs_space ftrial)) e), e. do 4 (split; [assumption|]).
  exact (projected_total S u RT P Q _ _ _ _ e HP HQ).
Qed.

(** [contained] for the known examples. *)
Theorem exact_instances : forall (T R : Type) (S : scalar T R), exact S -> exists one, (forall x, s_mul S one x = x) /\
  (forall fs : fspace T R, contained S fs fs (fun k i => if k =? i then one else s_zero S)) /\
  (forall (A B C : fspace T R) P Q, contained S A B P -> contained S B C Q ->
    contained S A C (fun k i => total S (seq 0 (global_size (fs_space B))) (fun j => s_mul S (Q k j) (P j i)))) /\
  (forall (cont disc : fspace T R), serial_space cont -> serial_space disc -> broken cont disc -> exists p, glues cont disc p /\
    contained S cont disc (fun k i => if p k =? i then one else s_zero S) /\
    forall k, k < global_size (fs_space disc) -> total S (seq 0 (global_size (fs_space cont))) (fun i => if p k =? i then one else s_zero S) = one) /\
  (forall (coarse fine : fspace T R), serial_space coarse -> serial_space fine -> fs_grid fine = fs_grid coarse ->
    constants S one coarse -> adds_to_one S one fine -> interior_family (g_types (fs_grid fine) 2) (fs_family fine) ->
    contained S coarse fine (fun k i => if same_cell coarse fine k i then one else s_zero S)).
Proof.
  intros T R S ((one & RT) & _). exists one. split; [apply (Rmul_1_l RT)|]. split; [apply (contained_refl S one RT)|].
  split; [apply (contained_trans S one RT)|]. split; [|apply (constants_contained S one RT)]. intros cont disc Sc Sd B.
  destruct (glue_exists cont disc Sc Sd B) as (p & G). exists p. split; [exact G|]. split; [now apply (broken_contained S one RT)|].
  intros k Hk. apply (total_pick S one RT). now apply G.
Qed.
