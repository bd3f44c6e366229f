(** * Hypersingular matrices from single layer matrices *)
From Coq Require Import Ring_theory Ring.
From Verif Require Import Base BaseFacts Topology TopologyFacts DofMap DofMapFacts SpecDof DofMapResults DofExamples Process Space SpecSpace Options Batch SpecBatch
  Adjacency SpecAdjacency Scalar Integrand CellPair Operators SpecLocal LocalFacts LocalResults Interleave Assembly SpecAssembly
  AssemblyFacts AssemblySingular AssemblyDense AssemblyExact AssemblyResults SpecAlgebra AlgebraFacts AlgebraResults
  SpecDistributed DistributedFacts DistributedResults SpecBroken BrokenResults SpecGalerkin GalerkinResults SpecCurls.

Section Forms.
Context {T R : Type} (S : scalar T R) (one : T) (RT : ring_theory (s_zero S) one (s_add S) (s_mul S) (s_sub S) (s_neg S) eq).
Context (inv : T -> T) (Hdiv : forall a b, s_div S a b = s_mul S a (inv b)).
Context (X : externals R).
Add Ring scalar_ring : RT.
Local Notation "a +! b" := (s_add S a b) (at level 50, left associativity).
Local Notation "a *! b" := (s_mul S a b) (at level 40, left associativity).

(** ** Integrands that are sums of products of values *)

Local Notation pick := (cell_map R -> nat -> (nat -> T) -> T).
Definition splits {A} (f : integrand T) (terms : list A) (a a' : A -> pick) : Prop :=
  forall k phi psi x p y q, integrand_value S f k phi psi x p y q = total S terms (fun z => k 0 *! a z x p phi *! a' z y q psi).

Definition curl_pick (n : nat) : pick := fun x p phi => s_div S (curl S x p phi n) (jdet S x p).
Definition normal_pick (n : nat) : pick := fun x p phi => normal S x p n *! phi 0.

Lemma curl_splits : splits HypersingularCurlCurl (seq 0 3) curl_pick curl_pick.
Proof.
  intros k phi psi x p y q. cbn [integrand_value seq]. rewrite !(total_cons S), (total_nil S). unfold curl_pick, dot. rewrite !Hdiv. ring.
Qed.
Lemma normal_splits : splits HypersingularNormalNormal (seq 0 3) normal_pick normal_pick.
Proof. intros k phi psi x p y q. cbn [integrand_value seq]. rewrite !(total_cons S), (total_nil S). unfold normal_pick, dot. ring. Qed.
Lemma helmholtz_splits c : splits (Sum HypersingularCurlCurl (TimesScalar c HypersingularNormalNormal)) (map inl (seq 0 3) ++ map inr (seq 0 3))
  (fun z => match z with inl n => curl_pick n | inr n => fun x p phi => c *! normal_pick n x p phi end)
  (fun z => match z with inl n => curl_pick n | inr n => normal_pick n end).
Proof.
  intros k phi psi x p y q. cbn [integrand_value]. rewrite (total_app S one RT), !(total_map S). f_equal.
  - change (k 0 *! dot S (curl S x p phi) (curl S y q psi)) with (k 0 *! dot S (curl S x p phi) (curl S y q psi)). exact (curl_splits k phi psi x p y q).
  - rewrite (total_ext S _ _ (fun n => c *! (k 0 *! normal_pick n x p phi *! normal_pick n y q psi))) by (intros; ring).
    rewrite (total_mul S one RT). f_equal. exact (normal_splits k phi psi x p y q).
Qed.

(** A function on a cell, changed at every point. *)
Definition changed (a : pick) (x : list R -> cell_map R) (u : @cell_function T R) : @cell_function T R :=
  fun points _ p => a (x points) p (fun d => u points d p).

(** Only the values of a function. *)
Definition cut (u : @cell_function T R) : @cell_function T R := fun points _ p => u points 0 p.

Definition values_only (B : @cell_function T R -> @cell_function T R -> T) : Prop := forall u v, B u v = B (cut u) (cut v).

Lemma pair_splits {A} (O : operator T R) H terms (a a' : A -> pick) deg pts test trial t s v :
  splits (op_integrand O) terms a a' -> (forall x y, H 0 x y = kn_value (op_kernel O) 0 x y) ->
  proper_rules X -> (g_id (fs_grid test) = g_id (fs_grid trial) -> fs_grid test = fs_grid trial) ->
  pair_value S X O deg pts test trial t s 0 0 v ->
  exists B B', bilinear S B /\ bilinear S B' /\ values_only B' /\
    (forall u w, B u w = total S terms (fun z => B' (changed (a z) (cell_of X test t) u) (changed (a' z) (cell_of X trial s) w))) /\
    forall test' trial' b c, fs_grid test' = fs_grid test -> fs_grid trial' = fs_grid trial ->
      pair_value S X O deg pts test' trial' t s b c (B (place test' t b) (place trial' s c)) /\
      pair_value S X (laplace_single_layer H) deg pts test' trial' t s b c (B' (place test' t b) (place trial' s c)).
Proof.
  intros Sp EH Pr Sa [(C & p & k & d & q & A1 & A2 & A3 & A4 & _)|(C & q & r & A1 & A2 & _)].
  - destruct (pr_duffy _ Pr _ _ _ _ _ A4) as (L1 & L2). assert (Eg := Sa (proj1 C)).
    set (x := x_geometry X (fs_grid test) (g_ctype (fs_grid test) t) (pq_test q) t).
    set (y := x_geometry X (fs_grid test) (g_ctype (fs_grid test) s) (pq_trial q) s).
    exists (fun u w => pairwise_entry S (op_integrand O) (kn_value (op_kernel O)) x y (as_basis u (pq_test q)) (as_basis w (pq_trial q)) (pq_weights q) 0 0).
    exists (fun u w => pairwise_entry S SingleLayer H x y (as_basis u (pq_test q)) (as_basis w (pq_trial q)) (pq_weights q) 0 0).
    split; [now apply (pairwise_bilinear S one RT inv Hdiv)|]. split; [now apply (pairwise_bilinear S one RT inv Hdiv)|].
    split; [intros u w; reflexivity|]. split.
    + intros u w. rewrite (pairwise_total S one RT).
      rewrite (total_ext S terms _ (fun z => total S (enumerate (pq_weights q)) (pairwise_term S SingleLayer H x y
        (as_basis (changed (a z) (cell_of X test t) u) (pq_test q)) (as_basis (changed (a' z) (cell_of X trial s) w) (pq_trial q)) 0 0)))
        by (intros; apply (pairwise_total S one RT)).
      rewrite (total_swap S one RT). apply total_ext. intros pw _. unfold pairwise_term. rewrite Sp, <- !(total_mul_r S one RT).
      apply total_ext. intros z _. cbn [integrand_value]. unfold as_basis, changed. rewrite EH.
      unfold cell_of. rewrite <- Eg. reflexivity.
    + intros test' trial' b c E E'. split; left; (split; [unfold touching in *; now rewrite E, E'|]); unfold singular_value; rewrite E;
        exists p, k, d, q; repeat (split; [assumption|]); unfold place, as_basis; rewrite E, E', <- Eg; reflexivity.
  - destruct (pr_simplex _ Pr _ _ _ A1) as (L1 & L1'), (pr_simplex _ Pr _ _ _ A2) as (L2 & L2').
    set (x := x_geometry X (fs_grid test) (g_ctype (fs_grid test) t) (qd_points q) t).
    set (y := x_geometry X (fs_grid trial) (g_ctype (fs_grid trial) s) (qd_points r) s).
    exists (fun u w => tensor_entry S (op_integrand O) (kn_value (op_kernel O)) x y (as_basis u (qd_points q)) (as_basis w (qd_points r)) (qd_weights q) (qd_weights r) 0 0).
    exists (fun u w => tensor_entry S SingleLayer H x y (as_basis u (qd_points q)) (as_basis w (qd_points r)) (qd_weights q) (qd_weights r) 0 0).
    split; [apply (tensor_bilinear S one RT inv Hdiv); lia|]. split; [apply (tensor_bilinear S one RT inv Hdiv); lia|].
    split; [intros u w; reflexivity|]. split.
    + intros u w. rewrite (tensor_total S one RT).
      rewrite (total_ext S terms _ (fun z => total S (enumerate (qd_weights q)) (fun pw => total S (enumerate (qd_weights r)) (fun qw => tensor_term S SingleLayer H x y
        (as_basis (changed (a z) (cell_of X test t) u) (qd_points q)) (as_basis (changed (a' z) (cell_of X trial s) w) (qd_points r)) 0 0 pw qw))))
        by (intros; apply (tensor_total S one RT)).
      symmetry. rewrite (total_swap S one RT). apply total_ext. intros pw _. rewrite (total_swap S one RT). apply total_ext. intros qw _. symmetry.
      unfold tensor_term. rewrite Sp, <- !(total_mul_r S one RT). apply total_ext. intros z _. cbn [integrand_value].
      unfold as_basis, changed. rewrite EH. reflexivity.
    + intros test' trial' b c E E'. split; right; (split; [unfold touching in *; now rewrite E, E'|]); unfold regular_value; rewrite E, E';
        exists q, r; repeat (split; [assumption|]); unfold place, as_basis; rewrite E, E'; reflexivity.
Qed.

(** ** Matrices *)

(** Values at every point as a combination of values. *)
Definition value_span (n : nat) (v : @cell_function T R) (P : nat -> T) (u : nat -> @cell_function T R) : Prop :=
  forall points p, 2 * (p + 1) <= length points -> v points 0 p = total S (seq 0 n) (fun k => P k *! u k points 0 p).

Lemma spanned_form B n m v w P Q u u' : bilinear S B -> values_only B -> value_span n v P u -> value_span m w Q u' ->
  B v w = total S (seq 0 n) (fun k => total S (seq 0 m) (fun l => P k *! B (u k) (u' l) *! Q l)).
Proof.
  intros Bi Vo Hv Hw. rewrite Vo. rewrite (bi_test _ _ Bi _ (seq 0 n) P (fun k => cut (u k))).
  - apply total_ext. intros k _. rewrite (bi_trial _ _ Bi _ (seq 0 m) Q (fun l => cut (u' l))).
    + rewrite <- (total_mul S one RT). apply total_ext. intros l _. rewrite <- (Vo (u k) (u' l)). ring.
    + intros points d p _ Hp. unfold cut. now apply Hw.
  - intros points d p _ Hp. unfold cut. now apply Hv.
Qed.

Lemma matrix_from {A} (terms : list A) P Q valc valf (test trial ftest ftrial : fspace T R) i j :
  fs_grid ftest = fs_grid test -> fs_grid ftrial = fs_grid trial ->
  (forall t s, t < ent_count (fs_grid test) 2 -> s < ent_count (fs_grid trial) 2 -> exists B B', bilinear S B /\ bilinear S B' /\
    (forall a b, valc t s a b = B (place test t a) (place trial s b)) /\ (forall a b, valf t s a b = B' (place ftest t a) (place ftrial s b)) /\
    B (restricted S test t i) (restricted S trial s j) = total S terms (fun z =>
      total S (seq 0 (global_size (fs_space ftest))) (fun k => total S (seq 0 (global_size (fs_space ftrial))) (fun l =>
        P z k i *! B' (restricted S ftest t k) (restricted S ftrial s l) *! Q z l j)))) ->
  matrix_entry S valc test trial i j =
  total S terms (fun z => projected S (P z) (Q z) (global_size (fs_space ftest)) (global_size (fs_space ftrial)) (matrix_entry S valf ftest ftrial) i j).
Proof.
  intros Eg Eg' F.
  transitivity (total S terms (fun z => total S (seq 0 (ent_count (fs_grid test) 2)) (fun t => total S (seq 0 (ent_count (fs_grid trial) 2)) (fun s =>
    total S (seq 0 (global_size (fs_space ftest))) (fun k => total S (seq 0 (global_size (fs_space ftrial))) (fun l =>
      P z k i *! total S (enumerate (dofs_at ftest t)) (fun ai => total S (enumerate (dofs_at ftrial s)) (fun bj =>
        if (snd ai =? k) && (snd bj =? l) then valf t s (fst ai) (fst bj) else s_zero S)) *! Q z l j)))))).
  - unfold matrix_entry. symmetry. rewrite (total_swap S one RT). apply total_ext. intros t Ht. rewrite (total_swap S one RT). apply total_ext. intros s Hs.
    symmetry. apply in_seq in Ht, Hs. destruct (F t s) as (B & B' & Bi & Bi' & Vc & Vf & E); [lia|lia|].
    transitivity (B (restricted S test t i) (restricted S trial s j)).
    + rewrite <- (form_entry S one RT B test trial t s i j Bi). apply total_ext. intros ai _. apply total_ext. intros bj _. now rewrite Vc.
    + rewrite E. apply total_ext. intros z _. apply total_ext. intros k _. apply total_ext. intros l _.
      rewrite <- (form_entry S one RT B' ftest ftrial t s k l Bi'). f_equal. f_equal. apply total_ext. intros ai _. apply total_ext. intros bj _. now rewrite Vf.
  - apply total_ext. intros z _. unfold projected. symmetry.
    transitivity (total S (seq 0 (global_size (fs_space ftest))) (fun k => total S (seq 0 (global_size (fs_space ftrial))) (fun l =>
      total S (seq 0 (ent_count (fs_grid test) 2)) (fun t => total S (seq 0 (ent_count (fs_grid trial) 2)) (fun s =>
      P z k i *! total S (enumerate (dofs_at ftest t)) (fun ai => total S (enumerate (dofs_at ftrial s)) (fun bj =>
        if (snd ai =? k) && (snd bj =? l) then valf t s (fst ai) (fst bj) else s_zero S)) *! Q z l j))))).
    + apply total_ext. intros k _. apply total_ext. intros l _. unfold matrix_entry. rewrite Eg, Eg'.
      rewrite <- (total_mul S one RT), <- (total_mul_r S one RT). apply total_ext. intros t _.
      rewrite <- (total_mul S one RT), <- (total_mul_r S one RT). apply total_ext. intros s _. reflexivity.
    + rewrite (total_swap3 S one RT). apply total_ext. intros t _. rewrite (total_swap3 S one RT). reflexivity.
Qed.

Section Split.
Context {A : Type} (terms : list A) (a a' : A -> pick) (P Q : A -> nat -> nat -> T).
Context (rt : runtime T) (wmod : nat) (O : operator T R) (H : @green T R) (o : options) (deg : cell_type -> cell_type -> nat) (pts : cell_type -> nat) (ct : cell_type).
Context (test trial ftest ftrial : fspace T R).
Context (Sp : splits (op_integrand O) terms a a') (EH : forall x y, H 0 x y = kn_value (op_kernel O) 0 x y).
Context (L : legal_runtime (s_add S) rt) (D : dense_setting X wmod O o deg pts ct test trial) (D' : dense_setting X wmod (laplace_single_layer H) o deg pts ct ftest ftrial).
Context (Eg : fs_grid ftest = fs_grid test) (Eg' : fs_grid ftrial = fs_grid trial).
Context (HP : forall z c i, In z terms -> c < ent_count (fs_grid test) 2 -> i < global_size (fs_space test) ->
  value_span (global_size (fs_space ftest)) (changed (a z) (cell_of X test c) (restricted S test c i)) (fun k => P z k i) (fun k => restricted S ftest c k)).
Context (HQ : forall z c j, In z terms -> c < ent_count (fs_grid trial) 2 -> j < global_size (fs_space trial) ->
  value_span (global_size (fs_space ftrial)) (changed (a' z) (cell_of X trial c) (restricted S trial c j)) (fun l => Q z l j) (fun l => restricted S ftrial c l)).

Theorem split_matrix : exists m fm e, assemble S X rt wmod O o trial test = Ok m /\ assemble S X rt wmod (laplace_single_layer H) o ftrial ftest = Ok fm /\
  (forall k l, k < global_size (fs_space ftest) -> l < global_size (fs_space ftrial) ->
    nth_error fm (k + global_size (fs_space ftest) * l) = Some (e k l)) /\
  forall i j, i < global_size (fs_space test) -> j < global_size (fs_space trial) ->
    nth_error m (i + global_size (fs_space test) * j) =
      Some (total S terms (fun z => projected S (P z) (Q z) (global_size (fs_space ftest)) (global_size (fs_space ftrial)) e i j)).
Proof.
  destruct (assembled S one RT X rt wmod O o deg pts ct test trial L D) as (m & val & E & _ & V & He).
  destruct (assembled S one RT X rt wmod _ o deg pts ct ftest ftrial L D') as (m' & val' & E' & _ & V' & He').
  exists m, m', (matrix_entry S val' ftest ftrial). do 2 (split; [assumption|]). split; [exact He'|].
  intros i j Hi Hj. rewrite (He i j Hi Hj). f_equal. apply matrix_from; auto. intros t s Ht Hs.
  destruct (pair_splits O H terms a a' deg pts test trial t s (val t s 0 0) Sp EH (dn_proper _ _ _ _ _ _ _ _ _ D) (dn_same _ _ _ _ _ _ _ _ _ D) (V t s 0 0 Ht Hs))
    as (B & B' & Bi & Bi' & Vo & HB & HV).
  exists B, B'. do 2 (split; [assumption|]). split; [|split].
  - intros b c. apply (pair_value_unique S X O deg pts test trial t s b c); auto. now apply HV.
  - intros b c. apply (pair_value_unique S X (laplace_single_layer H) deg pts ftest ftrial t s b c); [|now apply HV]. apply V'; [now rewrite Eg|now rewrite Eg'].
  - rewrite HB. apply total_ext. intros z Hz. apply (spanned_form B'); auto.
Qed.

Theorem split_near : exists m fm,
  assemble_singular_part S X rt wmod O o (shape_of test trial) trial test = Ok m /\
  assemble_singular_part S X rt wmod (laplace_single_layer H) o (shape_of ftest ftrial) ftrial ftest = Ok fm /\
  forall i j, i < global_size (fs_space test) -> j < global_size (fs_space trial) -> sparse_entry S m i j =
    total S terms (fun z => projected S (P z) (Q z) (global_size (fs_space ftest)) (global_size (fs_space ftrial)) (sparse_entry S fm) i j).
Proof.
  destruct (near_entries S one RT X rt wmod O o deg pts ct test trial L D) as (m & val & E & V & He).
  destruct (near_entries S one RT X rt wmod _ o deg pts ct ftest ftrial L D') as (m' & val' & E' & V' & He').
  exists m, m'. do 2 (split; [assumption|]). intros i j Hi Hj. unfold sparse_entry at 1. rewrite He.
  rewrite (matrix_from terms P Q _ (fun t s b c => if touchb ftest ftrial t s then val' t s b c else s_zero S) test trial ftest ftrial i j); auto.
  - apply total_ext. intros z _. unfold projected. apply total_ext. intros k _. apply total_ext. intros l _. unfold sparse_entry. now rewrite He'.
  - intros t s Ht Hs.
    assert (Et : touchb ftest ftrial t s = touchb test trial t s) by (unfold touchb; now rewrite Eg, Eg'). rewrite Et.
    destruct (touchb test trial t s).
    + destruct (pair_splits O H terms a a' deg pts test trial t s (val t s 0 0) Sp EH (dn_proper _ _ _ _ _ _ _ _ _ D) (dn_same _ _ _ _ _ _ _ _ _ D) (V t s 0 0 Ht Hs))
        as (B & B' & Bi & Bi' & Vo & HB & HV).
      exists B, B'. do 2 (split; [assumption|]). split; [|split].
      * intros b c. apply (pair_value_unique S X O deg pts test trial t s b c); auto. now apply HV.
      * intros b c. apply (pair_value_unique S X (laplace_single_layer H) deg pts ftest ftrial t s b c); [|now apply HV]. apply V'; [now rewrite Eg|now rewrite Eg'].
      * rewrite HB. apply total_ext. intros z Hz. apply (spanned_form B'); auto.
    + exists (fun _ _ => s_zero S), (fun _ _ => s_zero S). do 2 (split; [apply (zero_bilinear S one RT)|]). do 2 (split; [reflexivity|]).
      symmetry. apply (total_zero S one RT). intros z _. apply (total_zero S one RT). intros k _. apply (total_zero S one RT). intros l _. ring.
Qed.
End Split.

End Forms.

(** ** The two hypersingular operators *)

Lemma curl_span {T R} (S : scalar T R) X (fs fine : fspace T R) C : spanned S (surface_curl S X) fs fine C ->
  forall z c i, In z (seq 0 3) -> c < ent_count (fs_grid fs) 2 -> i < global_size (fs_space fs) ->
  value_span S (global_size (fs_space fine)) (changed (curl_pick S z) (cell_of X fs c) (restricted S fs c i)) (fun k => C z k i) (fun k => restricted S fine c k).
Proof. intros (_ & H) z c i Hz Hc Hi points p Hp. apply in_seq in Hz. apply (H c i points z p); auto; lia. Qed.
Lemma normal_span {T R} (S : scalar T R) X (fs fine : fspace T R) C : spanned S (normal_times S X) fs fine C ->
  forall z c i, In z (seq 0 3) -> c < ent_count (fs_grid fs) 2 -> i < global_size (fs_space fs) ->
  value_span S (global_size (fs_space fine)) (changed (normal_pick S z) (cell_of X fs c) (restricted S fs c i)) (fun k => C z k i) (fun k => restricted S fine c k).
Proof. intros (_ & H) z c i Hz Hc Hi points p Hp. apply in_seq in Hz. apply (H c i points z p); auto; lia. Qed.

Theorem laplace_curls : forall (T R : Type) (S : scalar T R) (X : externals R) rt wmod (G H : @green T R) o deg pts ct (test trial ftest ftrial : fspace T R) C D,
  exact S -> legal_runtime (s_add S) rt -> (forall x y, H 0 x y = G 0 x y) ->
  dense_setting X wmod (laplace_hypersingular G) o deg pts ct test trial -> dense_setting X wmod (laplace_single_layer H) o deg pts ct ftest ftrial ->
  spanned S (surface_curl S X) test ftest C -> spanned S (surface_curl S X) trial ftrial D ->
  exists m fm e, assemble S X rt wmod (laplace_hypersingular G) o trial test = Ok m /\ assemble S X rt wmod (laplace_single_layer H) o ftrial ftest = Ok fm /\
    (forall k l, k < global_size (fs_space ftest) -> l < global_size (fs_space ftrial) ->
      nth_error fm (k + global_size (fs_space ftest) * l) = Some (e k l)) /\
    forall i j, i < global_size (fs_space test) -> j < global_size (fs_space trial) ->
      nth_error m (i + global_size (fs_space test) * j) =
        Some (three_products S C D (global_size (fs_space ftest)) (global_size (fs_space ftrial)) e i j).
Proof.
  intros T R S X rt wmod G H o deg pts ct test trial ftest ftrial C D ((one & RT) & (inv & Hdiv)) L EH D1 D2 HC HD. unfold three_products.
  apply (split_matrix S one RT inv Hdiv X (seq 0 3) (curl_pick S) (curl_pick S) C D rt wmod _ H o deg pts ct); auto.
  - exact (curl_splits S one RT inv Hdiv).
  - exact (proj1 HC).
  - exact (proj1 HD).
  - now apply curl_span.
  - now apply curl_span.
Qed.

Theorem laplace_curls_near : forall (T R : Type) (S : scalar T R) (X : externals R) rt wmod (G H : @green T R) o deg pts ct (test trial ftest ftrial : fspace T R) C D,
  exact S -> legal_runtime (s_add S) rt -> (forall x y, H 0 x y = G 0 x y) ->
  dense_setting X wmod (laplace_hypersingular G) o deg pts ct test trial -> dense_setting X wmod (laplace_single_layer H) o deg pts ct ftest ftrial ->
  spanned S (surface_curl S X) test ftest C -> spanned S (surface_curl S X) trial ftrial D ->
  exists m fm,
    assemble_singular_part S X rt wmod (laplace_hypersingular G) o (global_size (fs_space test), global_size (fs_space trial)) trial test = Ok m /\
    assemble_singular_part S X rt wmod (laplace_single_layer H) o (global_size (fs_space ftest), global_size (fs_space ftrial)) ftrial ftest = Ok fm /\
    forall i j, i < global_size (fs_space test) -> j < global_size (fs_space trial) -> sparse_entry S m i j =
      three_products S C D (global_size (fs_space ftest)) (global_size (fs_space ftrial)) (sparse_entry S fm) i j.
Proof.
  intros T R S X rt wmod G H o deg pts ct test trial ftest ftrial C D ((one & RT) & (inv & Hdiv)) L EH D1 D2 HC HD. unfold three_products.
  apply (split_near S one RT inv Hdiv X (seq 0 3) (curl_pick S) (curl_pick S) C D rt wmod _ H o deg pts ct); auto.
  - exact (curl_splits S one RT inv Hdiv).
  - exact (proj1 HC).
  - exact (proj1 HD).
  - now apply curl_span.
  - now apply curl_span.
Qed.

Theorem helmholtz_curls : forall (T R : Type) (S : scalar T R) (X : externals R) rt wmod (G H : R -> @green T R) wavenumber o deg pts ct (test trial ftest ftrial : fspace T R) C D M N,
  exact S -> legal_runtime (s_add S) rt -> (forall x y, H wavenumber 0 x y = G wavenumber 0 x y) ->
  dense_setting X wmod (helmholtz_hypersingular S G wavenumber) o deg pts ct test trial ->
  dense_setting X wmod (helmholtz_single_layer H wavenumber) o deg pts ct ftest ftrial ->
  spanned S (surface_curl S X) test ftest C -> spanned S (surface_curl S X) trial ftrial D ->
  spanned S (normal_times S X) test ftest M -> spanned S (normal_times S X) trial ftrial N ->
  exists m fm e, assemble S X rt wmod (helmholtz_hypersingular S G wavenumber) o trial test = Ok m /\
    assemble S X rt wmod (helmholtz_single_layer H wavenumber) o ftrial ftest = Ok fm /\
    (forall k l, k < global_size (fs_space ftest) -> l < global_size (fs_space ftrial) ->
      nth_error fm (k + global_size (fs_space ftest) * l) = Some (e k l)) /\
    forall i j, i < global_size (fs_space test) -> j < global_size (fs_space trial) ->
      nth_error m (i + global_size (fs_space test) * j) =
        Some (s_add S (three_products S C D (global_size (fs_space ftest)) (global_size (fs_space ftrial)) e i j)
          (s_mul S (s_cast S (r_neg S (r_mul S wavenumber wavenumber)))
             (three_products S M N (global_size (fs_space ftest)) (global_size (fs_space ftrial)) e i j))).
Proof.
  intros T R S X rt wmod G H w o deg pts ct test trial ftest ftrial C D M N ((one & RT) & (inv & Hdiv)) L EH D1 D2 HC HD HM HN. unfold three_products.
  set (c := s_cast S (r_neg S (r_mul S w w))).
  destruct (split_matrix S one RT inv Hdiv X (map inl (seq 0 3) ++ map inr (seq 0 3))
    (fun z => match z with inl n => curl_pick S n | inr n => fun x p phi => s_mul S c (normal_pick S n x p phi) end)
    (fun z => match z with inl n => curl_pick S n | inr n => normal_pick S n end)
    (fun z => match z with inl n => C n | inr n => fun k i => s_mul S c (M n k i) end)
    (fun z => match z with inl n => D n | inr n => N n end) rt wmod (helmholtz_hypersingular S G w) (H w) o deg pts ct test trial ftest ftrial) as (m & fm & e & E & E' & He & Hm); auto.
  - exact (helmholtz_splits S one RT inv Hdiv c).
  - exact (proj1 HC).
  - exact (proj1 HD).
  - intros [n|n] k i Hz Hc Hi; apply in_app_iff in Hz; destruct Hz as [Hz|Hz]; apply in_map_iff in Hz; destruct Hz as (n' & En & Hn); try discriminate.
    + injection En as ->. now apply (curl_span S X test ftest C HC).
    + injection En as ->. intros points p Hp. pose proof (normal_span S X test ftest M HM n k i Hn Hc Hi points p Hp) as HH.
      unfold changed in *. rewrite HH. rewrite <- (total_mul S one RT). apply total_ext. intros l _. apply (Rmul_assoc RT).
  - intros [n|n] k i Hz Hc Hi; apply in_app_iff in Hz; destruct Hz as [Hz|Hz]; apply in_map_iff in Hz; destruct Hz as (n' & En & Hn); try discriminate.
    + injection En as ->. now apply (curl_span S X trial ftrial D HD).
    + injection En as ->. now apply (normal_span S X trial ftrial N HN).
  - exists m, fm, e. do 3 (split; [assumption|]). intros i j Hi Hj. rewrite (Hm i j Hi Hj). f_equal.
    rewrite (total_app S one RT), !(total_map S). f_equal. rewrite <- (total_mul S one RT). apply total_ext. intros n _.
    unfold projected. rewrite <- (total_mul S one RT). apply total_ext. intros k _. rewrite <- (total_mul S one RT). apply total_ext. intros l _.
    rewrite !(Rmul_assoc RT). reflexivity.
Qed.
