(** * Matrices are linear in the kernel and bounded with it *)
From Coq Require Import Ring_theory Ring Reals Lra.
From Verif Require Import Base BaseFacts Topology TopologyFacts DofMap SpecDof Process Space SpecSpace Options Adjacency SpecAdjacency
  Scalar Integrand CellPair Operators SpecLocal LocalFacts LocalResults Interleave Assembly SpecAssembly
  AssemblyExact AssemblyResults SpecAlgebra AlgebraFacts AlgebraResults SpecOrder SpecTransfer TransferResults SpecScalars ScalarsResults
  SpecOperators SpecRounding RoundingResults SpecWaves.

Section Linear.
Context {T R : Type} (S : scalar T R) (one : T) (RT : ring_theory (s_zero S) one (s_add S) (s_mul S) (s_sub S) (s_neg S) eq).
Context (inv : T -> T) (Hdiv : forall a b, s_div S a b = s_mul S a (inv b)).
Context (X : externals R).
Add Ring scalar_ring : RT.
Local Notation "a +! b" := (s_add S a b) (at level 50, left associativity).
Local Notation "a *! b" := (s_mul S a b) (at level 40, left associativity).

Lemma first_only x y : one *! x +! s_zero S *! y = x. Proof. ring. Qed.

Lemma value_linear f (k k1 k2 phi psi : nat -> T) (x : cell_map R) p (y : cell_map R) q a b :
  (forall n, part_used f n -> k n = a *! k1 n +! b *! k2 n) ->
  integrand_value S f k phi psi x p y q = a *! integrand_value S f k1 phi psi x p y q +! b *! integrand_value S f k2 phi psi x p y q.
Proof.
  induction f; cbn [integrand_value part_used]; intros H.
  - rewrite (H 0) by reflexivity. ring.
  - unfold dot. cbn [Nat.add]. rewrite (H 1), (H 2), (H 3) by lia. ring.
  - unfold dot. cbn [Nat.add]. rewrite (H 1), (H 2), (H 3) by lia. ring.
  - rewrite (H 0) by reflexivity. rewrite !Hdiv. ring.
  - rewrite (H 0) by reflexivity. ring.
  - rewrite IHf1, IHf2 by auto. ring.
  - rewrite IHf by auto. ring.
Qed.

Lemma tensor_kernel f (G G1 G2 : @green T R) x y phi psi wt ws a b c d :
  (forall n x y, part_used f n -> G n x y = c *! G1 n x y +! d *! G2 n x y) ->
  tensor_entry S f G x y phi psi wt ws a b = c *! tensor_entry S f G1 x y phi psi wt ws a b +! d *! tensor_entry S f G2 x y phi psi wt ws a b.
Proof.
  intros H. rewrite !(tensor_total S one RT). rewrite <- !(total_mul S one RT), <- (total_add S one RT). apply total_ext. intros pw _.
  rewrite <- !(total_mul S one RT), <- (total_add S one RT). apply total_ext. intros qw _. unfold tensor_term.
  rewrite (value_linear f _ (fun i => G1 i (position x (fst pw)) (position y (fst qw))) (fun i => G2 i (position x (fst pw)) (position y (fst qw))) _ _ _ _ _ _ c d)
    by (intros n Hn; now apply H). ring.
Qed.

Lemma pairwise_kernel f (G G1 G2 : @green T R) x y phi psi w a b c d :
  (forall n x y, part_used f n -> G n x y = c *! G1 n x y +! d *! G2 n x y) ->
  pairwise_entry S f G x y phi psi w a b = c *! pairwise_entry S f G1 x y phi psi w a b +! d *! pairwise_entry S f G2 x y phi psi w a b.
Proof.
  intros H. rewrite !(pairwise_total S one RT). rewrite <- !(total_mul S one RT), <- (total_add S one RT). apply total_ext. intros pw _. unfold pairwise_term.
  rewrite (value_linear f _ (fun i => G1 i (position x (fst pw)) (position y (fst pw))) (fun i => G2 i (position x (fst pw)) (position y (fst pw))) _ _ _ _ _ _ c d)
    by (intros n Hn; now apply H). ring.
Qed.

Lemma pair_kernel (O : operator T R) (G1 G2 : @green T R) deg pts test trial t s a b c d v v1 v2 :
  (forall n x y, part_used (op_integrand O) n -> kn_value (op_kernel O) n x y = c *! G1 n x y +! d *! G2 n x y) ->
  pair_value S X O deg pts test trial t s a b v ->
  pair_value S X (with_kernel O G1) deg pts test trial t s a b v1 -> pair_value S X (with_kernel O G2) deg pts test trial t s a b v2 ->
  v = c *! v1 +! d *! v2.
Proof.
  intros H V V1 V2. destruct V as [(C & p & k & e & q & A1 & A2 & A3 & A4 & ->)|(C & q & r & A1 & A2 & ->)].
  - assert (U : forall G v, pair_value S X (with_kernel O G) deg pts test trial t s a b v ->
      v = pairwise_entry S (op_integrand O) G (x_geometry X (fs_grid test) (g_ctype (fs_grid test) t) (pq_test q) t) (x_geometry X (fs_grid test) (g_ctype (fs_grid test) s) (pq_trial q) s)
      (fun d p i => fs_basis test (g_ctype (fs_grid test) t) (pq_test q) d p i 0)
      (fun d p i => fs_basis trial (g_ctype (fs_grid test) s) (pq_trial q) d p i 0) (pq_weights q) a b).
    { intros G w W. apply (pair_value_unique S X (with_kernel O G) deg pts test trial t s a b); auto.
      left. split; auto. exists p, k, e, q. repeat (split; [assumption|]). reflexivity. }
    rewrite (U _ _ V1), (U _ _ V2). now apply pairwise_kernel.
  - assert (U : forall G v, pair_value S X (with_kernel O G) deg pts test trial t s a b v ->
      v = tensor_entry S (op_integrand O) G (x_geometry X (fs_grid test) (g_ctype (fs_grid test) t) (qd_points q) t) (x_geometry X (fs_grid trial) (g_ctype (fs_grid trial) s) (qd_points r) s)
      (fun d p i => fs_basis test (g_ctype (fs_grid test) t) (qd_points q) d p i 0)
      (fun d p i => fs_basis trial (g_ctype (fs_grid trial) s) (qd_points r) d p i 0) (qd_weights q) (qd_weights r) a b).
    { intros G w W. apply (pair_value_unique S X (with_kernel O G) deg pts test trial t s a b); auto.
      right. split; auto. exists q, r. repeat (split; [assumption|]). reflexivity. }
    rewrite (U _ _ V1), (U _ _ V2). now apply tensor_kernel.
Qed.

Lemma kernel_setting wmod (O : operator T R) G o deg pts ct test trial :
  dense_setting X wmod O o deg pts ct test trial -> dense_setting X wmod (with_kernel O G) o deg pts ct test trial.
Proof. intros D. apply (dense_operator X wmod O); auto. exact (dn_fitting _ _ _ _ _ _ _ _ _ D). Qed.

Theorem linear_in_kernel rt wmod (O : operator T R) (G1 G2 : @green T R) c d o deg pts ct test trial :
  legal_runtime (s_add S) rt -> dense_setting X wmod O o deg pts ct test trial ->
  (forall n x y, part_used (op_integrand O) n -> kn_value (op_kernel O) n x y = c *! G1 n x y +! d *! G2 n x y) ->
  exists m1 m2 m,
    assemble S X rt wmod (with_kernel O G1) o trial test = Ok m1 /\ assemble S X rt wmod (with_kernel O G2) o trial test = Ok m2 /\
    assemble S X rt wmod O o trial test = Ok m /\ entrywise (fun x y => c *! x +! d *! y) m1 m2 m.
Proof.
  intros L D H.
  destruct (assembled S one RT X rt wmod O o deg pts ct test trial L D) as (m & val & E & Ll & V & Hm).
  destruct (assembled S one RT X rt wmod _ o deg pts ct test trial L (kernel_setting _ _ G1 _ _ _ _ _ _ D)) as (m1 & val1 & E1 & Ll1 & V1 & Hm1).
  destruct (assembled S one RT X rt wmod _ o deg pts ct test trial L (kernel_setting _ _ G2 _ _ _ _ _ _ D)) as (m2 & val2 & E2 & Ll2 & V2 & Hm2).
  exists m1, m2, m. do 3 (split; [assumption|]). split; [congruence|]. split; [congruence|]. intros k x y Hx Hy.
  assert (Hk : k < length m1) by (apply nth_error_Some; congruence).
  rewrite Ll1 in Hk. destruct (position_split _ _ _ Hk) as (i & j & Hi & Hj & ->). rewrite Hm1 in Hx by auto. rewrite Hm2 in Hy by auto. rewrite Hm by auto.
  injection Hx as <-. injection Hy as <-. f_equal. rewrite <- !(matrix_mul S one RT), <- (matrix_add S one RT). apply matrix_ext.
  intros t s a b Ht Hs. eapply pair_kernel; eauto.
Qed.
End Linear.

Theorem exact_linear_in_kernel {T R : Type} (S : scalar T R) (X : externals R) rt wmod (O : operator T R) (G1 G2 : @green T R) c d o deg pts ct test trial :
  exact S -> legal_runtime (s_add S) rt -> dense_setting X wmod O o deg pts ct test trial ->
  (forall n x y, part_used (op_integrand O) n -> kn_value (op_kernel O) n x y = s_add S (s_mul S c (G1 n x y)) (s_mul S d (G2 n x y))) ->
  exists m1 m2 m,
    assemble S X rt wmod (with_kernel O G1) o trial test = Ok m1 /\ assemble S X rt wmod (with_kernel O G2) o trial test = Ok m2 /\
    assemble S X rt wmod O o trial test = Ok m /\ entrywise (fun x y => s_add S (s_mul S c x) (s_mul S d y)) m1 m2 m.
Proof. intros ((one & RT) & (inv & Hdiv)). now apply (linear_in_kernel S one RT inv Hdiv). Qed.

(** ** Bounds *)
Local Open Scope R_scope.
Section Bound.
Context {T : Type} (norm : T -> R) (E : scalar T R) (V : valued E norm).

Lemma eq_lists {A : Type} (l : list A) : Forall2 eq l l.
Proof. induction l; constructor; auto. Qed.

Definition under (x : T) (z : R) : Prop := norm x <= z.
Definition same_nonzero (r s : R) : Prop := r = s /\ s <> 0.

Lemma under_pos x z : under x z -> 0 <= z.
Proof. intros H. pose proof (norm_pos norm E V x). unfold under in H. lra. Qed.

Lemma under_arithmetic : related_arithmetic under eq same_nonzero E absolute.
Proof.
  constructor.
  - unfold under. cbn. rewrite (va_zero _ _ V). lra.
  - intros x x' y y' H H'. unfold under in *. cbn. pose proof (va_add _ _ V x y). lra.
  - intros x x' y y' H H'. assert (P := under_pos _ _ H). unfold under in *. cbn. rewrite (va_mul _ _ V).
    apply Rmult_le_compat; auto using (norm_pos norm E V).
  - intros r r' <-. unfold under. cbn. rewrite (va_cast _ _ V). lra.
  - intros r r' s s' <- <-. cbn. apply (va_real_mul _ _ V).
  - now intros r r' (-> & _).
Qed.

Lemma under_operations : related_operations under same_nonzero eq E absolute.
Proof.
  constructor.
  - intros x x' y y' H H'. unfold under in *. cbn. pose proof (norm_sub norm E V x y). lra.
  - intros r r' <-. unfold under. cbn. rewrite (va_cast _ _ V). lra.
  - intros x x' H. unfold under in *. cbn. now rewrite (va_neg _ _ V).
  - intros x x' r r' H (<- & Z). unfold under in *. cbn. rewrite (va_div _ _ V) by exact Z. rewrite (va_mul _ _ V), (va_cast _ _ V), Rabs_inv.
    unfold Rdiv. apply Rmult_le_compat_r; auto. left. apply Rinv_0_lt_compat. now apply Rabs_pos_lt.
Qed.

Lemma under_form f : related_form under f (map_integrand norm f).
Proof. induction f; cbn [related_form map_integrand]; auto. split; auto. unfold under. lra. Qed.

(** Parts of the kernel that are not used do not matter: replace them by zero. *)
Fixpoint uses {A : Type} (f : integrand A) (n : nat) : bool :=
  match f with
  | SingleLayer | HypersingularCurlCurl | HypersingularNormalNormal => (n =? 0)%nat
  | DoubleLayer | AdjointDoubleLayer => (1 <=? n)%nat && (n <=? 3)%nat
  | Sum f0 f1 => uses f0 n || uses f1 n
  | TimesScalar _ f0 => uses f0 n
  end.
Lemma uses_spec {A : Type} (f : integrand A) n : uses f n = true <-> part_used f n.
Proof.
  induction f; cbn [uses part_used]; try apply Nat.eqb_eq; auto; try (rewrite andb_true_iff, !Nat.leb_le; reflexivity).
  rewrite orb_true_iff, IHf1, IHf2. reflexivity.
Qed.
Definition used_parts (O : operator T R) : @green T R :=
  fun n x y => if uses (op_integrand O) n then kn_value (op_kernel O) n x y else s_zero E.

Lemma used_parts_same X rt wmod (O : operator T R) o deg pts ct test trial :
  legal_runtime (s_add E) rt -> dense_setting X wmod O o deg pts ct test trial ->
  exists m, assemble E X rt wmod (with_kernel O (used_parts O)) o trial test = Ok m /\ assemble E X rt wmod O o trial test = Ok m.
Proof.
  intros L D. destruct (va_exact _ _ V) as ((one & RT) & (inv & Hdiv)).
  assert (I1 := first_only E one RT).
  destruct (linear_in_kernel E one RT inv Hdiv X rt wmod O (used_parts O) (used_parts O) one (s_zero E) o deg pts ct test trial L D) as (m1 & m2 & m & E1 & E2 & E3 & L1 & L2 & H).
  - intros n x y U. unfold used_parts. apply uses_spec in U. rewrite U. now rewrite I1.
  - exists m1. split; [exact E1|]. rewrite E3. f_equal. assert (m2 = m1) by congruence. subst m2.
    apply nth_error_ext. intros k. destruct (nth_error m1 k) as [x|] eqn:Ek.
    + rewrite (H k x x Ek Ek). now rewrite I1.
    + apply nth_error_None in Ek. apply nth_error_None. lia.
Qed.

Theorem bounded_with_kernel X rt rt' wmod (O : operator T R) (B : @green R R) o deg pts ct test trial :
  legal_runtime (s_add E) rt -> legal_runtime Rplus rt' -> dense_setting X wmod O o deg pts ct test trial -> nonzero_determinants X ->
  kernel_bound norm O B ->
  exists m a, assemble E X rt wmod O o trial test = Ok m /\
    assemble absolute X rt' wmod (bound_operator norm O B) o (absolute_space norm trial) (absolute_space norm test) = Ok a /\
    Forall2 (fun x z => norm x <= z) m a.
Proof.
  intros L L' D N (KB & KP).
  destruct (used_parts_same X rt wmod O o deg pts ct test trial L D) as (m & Em & Em').
  assert (DU := kernel_setting X wmod O (used_parts O) o deg pts ct test trial D).
  assert (FB : fitting (bound_operator norm O B)).
  { apply (fitting_map (T := T) O); cbn; auto using kernel_used_map, derivs_used_map. exact (dn_fitting _ _ _ _ _ _ _ _ _ D). }
  assert (Mw : forall fs : fspace T R, mapped_space norm fs (absolute_space norm fs)) by (intros fs; constructor; reflexivity).
  assert (DB := mapped_setting norm X wmod O (bound_operator norm O B) o deg pts ct test trial _ _ (Mw test) (Mw trial) FB D).
  destruct (transfer_matrix under eq same_nonzero eq (fun p p' => p = p' /\ rule_points X p) E absolute under_arithmetic) with (X := X) (X' := X) (wmod := wmod) (wmod' := wmod)
    (O := with_kernel O (used_parts O)) (O' := bound_operator norm O B) (o := o) (o' := o) (deg := deg) (pts := pts) (ct := ct)
    (test := test) (trial := trial) (test' := absolute_space norm test) (trial' := absolute_space norm trial) (rt := rt) (rt' := rt')
    as (m1 & a & E1 & E2 & F); auto.
  - now repeat split.
  - now repeat split.
  - constructor.
    + intros t n q q' A A'. assert (q' = q) by congruence. subst q'. split; [split; auto; left; exists t, n, q; auto|]. apply eq_lists.
    + intros k d p n q q' A A'. assert (q' = q) by congruence. subst q'.
      split; [split; auto; right; exists k, d, p, n, q; auto|]. split; [split; auto; right; exists k, d, p, n, q; auto|]. apply eq_lists.
    + intros g t points points' c p (<- & RP) Hp Hc. split; [reflexivity|]. split; [reflexivity|]. split; [reflexivity|]. now apply N.
  - assert (K : forall n x y, (n < op_deriv_size O)%nat -> under (used_parts O n x y) (B n x y)).
    { intros n x y Hn. unfold under, used_parts. destruct (uses (op_integrand O) n) eqn:U; [apply KP; now apply uses_spec|].
      rewrite (va_zero _ _ V). now apply KB. }
    constructor.
    + intros. cbn zeta. assert (qt' = qt) by congruence. assert (qs' = qs) by congruence. subst qt' qs'. now apply K.
    + intros. cbn zeta. assert (q' = q) by congruence. subst q'. now apply K.
  - intros t points points' d p b (<- & _) Hp Hd Hb. apply Rle_refl.
  - intros t points points' d p b (<- & _) Hp Hd Hb. apply Rle_refl.
  - apply (related_form_value _ _ _ _ _ _ under_arithmetic); [exact under_operations|apply under_form].
  - exists m, a. split; [exact Em'|]. split; [exact E2|]. assert (m1 = m) by congruence. now subst m1.
Qed.
End Bound.
