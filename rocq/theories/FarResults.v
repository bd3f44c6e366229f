(** * Entries are bounded by the factor times the entry for kernel 1 *)
From Coq Require Import Reals Lra.
From Verif Require Import Base BaseFacts Topology TopologyFacts DofMap DofMapFacts SpecDof DofMapResults Process Space SpecSpace Options
  Adjacency SpecAdjacency Scalar Integrand CellPair Operators SpecLocal LocalFacts LocalResults Interleave Assembly SpecAssembly
  AssemblyFacts AssemblySingular AssemblyDense AssemblyExact AssemblyResults SpecAlgebra AlgebraFacts AlgebraResults
  SpecBroken BrokenResults SpecTransfer SpecScalars ScalarsResults SpecRounding RoundingModels SpecDigits SpecGalerkin GalerkinResults SpecMeasure MeasureResults TurnExamples SpecWaves SpecDecay DecayResults SpecPlanes SpecFar.

Local Open Scope R_scope.

Section Bound.
Context {T : Type} (E : scalar T R) (norm : T -> R) (V : valued E norm).

Lemma norm_nonneg x : 0 <= norm x.
Proof.
  destruct (va_exact _ _ V) as ((one & RT) & _). pose proof (va_add _ _ V x (s_neg E x)) as A. rewrite (Ring_theory.Ropp_def RT), (va_zero _ _ V), (va_neg _ _ V) in A. lra.
Qed.

Lemma norm_total {A : Type} (f : A -> T) (g : A -> R) c l : (forall a, In a l -> norm (f a) <= c * g a) -> norm (total E l f) <= c * total reals l g.
Proof.
  rewrite <- real_total_mul. induction l as [|a l IH]; intros H; [cbn; rewrite (va_zero _ _ V); lra|]. rewrite !AssemblyExact.total_cons. cbn [s_add reals].
  eapply Rle_trans; [apply (va_add _ _ V)|]. apply Rplus_le_compat; [apply H; now left|apply IH; intros; apply H; now right].
Qed.

Context (X : externals R) (wmod : nat) (O : operator T R) (o : options) (deg : cell_type -> cell_type -> nat) (pts : cell_type -> nat) (ct : cell_type)
  (test trial : fspace T R).
Context (D : dense_setting X wmod O o deg pts ct test trial) (Hf : product_integrand (op_integrand O)).
Context (HX : positive_externals (Rle 0) X).

Local Notation atest := (absolute_space norm test).
Local Notation atrial := (absolute_space norm trial).
Local Notation Ones := (laplace_single_layer (R := R) ones).

Lemma absolute_mapped (fs : fspace T R) : mapped_space norm fs (absolute_space norm fs).
Proof. constructor; reflexivity. Qed.

Lemma dense_absolute : dense_setting X wmod Ones o deg pts ct atest atrial.
Proof.
  apply (mapped_setting norm X wmod O Ones o deg pts ct test trial atest atrial (absolute_mapped test) (absolute_mapped trial)); [|exact D].
  apply (shipped_fitting reals), sh_laplace_single.
Qed.

Lemma value_factor k phi psi x p y q : integrand_value E (op_integrand O) k phi psi x p y q = s_mul E (s_mul E (factor E (op_integrand O) k x p y q) (phi 0%nat)) (psi 0%nat).
Proof. destruct Hf as [-> |[-> |[-> | ->]]]; reflexivity. Qed.

Lemma cast_product x y : norm (s_cast E (r_mul E x y)) = Rabs x * Rabs y.
Proof. now rewrite (va_real_mul _ _ V), (va_cast _ _ V), Rabs_mult. Qed.

Lemma pair_bound c t s a b v : (t < ent_count (fs_grid test) 2)%nat -> (s < ent_count (fs_grid trial) 2)%nat ->
  (forall x p y q, used_points X deg pts test trial t s x p y q -> norm (factor E (op_integrand O) (fun i => kn_value (op_kernel O) i (SpecLocal.position x p) (SpecLocal.position y q)) x p y q) <= c) ->
  pair_value E X O deg pts test trial t s a b v ->
  exists w, pair_value reals X Ones deg pts atest atrial t s a b w /\ norm v <= c * w.
Proof.
  intros Ht Hs K. pose proof (dn_proper _ _ _ _ _ _ _ _ _ D) as [P1 P2]. destruct (va_exact _ _ V) as ((one & RT) & _).
  intros [(C & p & k & d & q & A1 & A2 & A3 & A4 & ->)|(C & q & r & A1 & A2 & ->)].
  - assert (G : fs_grid test = fs_grid trial) by (apply (dn_same _ _ _ _ _ _ _ _ _ D), C).
    destruct (P2 _ _ _ _ _ A4) as (L1 & L2).
    eexists. split.
    + left. split; [exact C|]. exists p, k, d, q. repeat (split; [assumption|]). reflexivity.
    + rewrite (pairwise_total E one RT), (pairwise_total reals 1 reals_ring). apply norm_total. intros [n w] Hw. apply In_enumerate in Hw. cbn [fst snd] in Hw.
      assert (Hn : (n < length (pq_weights q))%nat) by (apply nth_error_Some; congruence).
      unfold pairwise_term. cbn [fst snd]. rewrite value_factor, !(va_mul _ _ V), cast_product, (va_real_mul _ _ V), Rabs_mult.
      cbn [laplace_single_layer op_integrand integrand_value op_kernel kn_value s_mul s_cast r_mul reals absolute_space fs_basis fs_grid]. unfold ones.
      assert (R1 : rule_points X (pq_test q)) by (right; eauto 10). assert (R2 : rule_points X (pq_trial q)) by (right; exists k, d, p, (deg (g_ctype (fs_grid test) t) (g_ctype (fs_grid test) s)), q; auto).
      assert (W : 0 <= w) by (pose proof (px_duffy _ _ HX _ _ _ _ _ A4) as F; rewrite Forall_forall in F; apply F; eapply nth_error_In; eauto).
      assert (J1 : 0 <= cm_jdet (x_geometry X (fs_grid test) (g_ctype (fs_grid test) t) (pq_test q) t) n) by (apply (px_geometry _ _ HX); auto; lia).
      assert (J2 : 0 <= cm_jdet (x_geometry X (fs_grid test) (g_ctype (fs_grid test) s) (pq_trial q) s) n) by (apply (px_geometry _ _ HX); auto; [lia|congruence]).
      rewrite !Rabs_pos_eq by assumption.
      pose proof (K _ _ _ _ (used_touching X deg pts test trial t s p k d q n C A1 A2 A3 A4 Hn)) as Q.
      set (F := norm (factor _ _ _ _ _ _ _)) in *. set (u := norm (fs_basis test _ _ _ _ _ _)). set (v := norm (fs_basis trial _ _ _ _ _ _)).
      assert (U : 0 <= u) by apply norm_nonneg. assert (V0 : 0 <= v) by apply norm_nonneg. rewrite Rmult_1_l.
      replace (F * u * v * (w * (cm_jdet (x_geometry X (fs_grid test) (g_ctype (fs_grid test) t) (pq_test q) t) n * cm_jdet (x_geometry X (fs_grid test) (g_ctype (fs_grid test) s) (pq_trial q) s) n)))
        with (F * (u * v * (w * (cm_jdet (x_geometry X (fs_grid test) (g_ctype (fs_grid test) t) (pq_test q) t) n * cm_jdet (x_geometry X (fs_grid test) (g_ctype (fs_grid test) s) (pq_trial q) s) n)))) by ring.
      apply Rmult_le_compat_r; [|exact Q]. repeat apply Rmult_le_pos; auto.
  - destruct (P1 _ _ _ A1) as (L1 & L2), (P1 _ _ _ A2) as (L3 & L4).
    eexists. split.
    + right. split; [exact C|]. exists q, r. repeat (split; [assumption|]). reflexivity.
    + rewrite (tensor_total E one RT), (tensor_total reals 1 reals_ring). apply norm_total. intros [n w] Hw. apply In_enumerate in Hw. cbn [fst snd] in Hw.
      apply norm_total. intros [n' w'] Hw'. apply In_enumerate in Hw'. cbn [fst snd] in Hw'.
      assert (Hn : (n < length (qd_weights q))%nat) by (apply nth_error_Some; congruence). assert (Hn' : (n' < length (qd_weights r))%nat) by (apply nth_error_Some; congruence).
      unfold tensor_term. cbn [fst snd]. rewrite value_factor, !(va_mul _ _ V), !cast_product.
      cbn [laplace_single_layer op_integrand integrand_value op_kernel kn_value s_mul s_cast r_mul reals absolute_space fs_basis fs_grid]. unfold ones.
      assert (R1 : rule_points X (qd_points q)) by (left; eauto 10). assert (R2 : rule_points X (qd_points r)) by (left; eauto 10).
      assert (W : 0 <= w) by (pose proof (px_simplex _ _ HX _ _ _ A1) as F; rewrite Forall_forall in F; apply F; eapply nth_error_In; eauto).
      assert (W' : 0 <= w') by (pose proof (px_simplex _ _ HX _ _ _ A2) as F; rewrite Forall_forall in F; apply F; eapply nth_error_In; eauto).
      assert (J1 : 0 <= cm_jdet (x_geometry X (fs_grid test) (g_ctype (fs_grid test) t) (qd_points q) t) n) by (apply (px_geometry _ _ HX); auto; lia).
      assert (J2 : 0 <= cm_jdet (x_geometry X (fs_grid trial) (g_ctype (fs_grid trial) s) (qd_points r) s) n') by (apply (px_geometry _ _ HX); auto; lia).
      rewrite !Rabs_pos_eq by assumption.
      pose proof (K _ _ _ _ (used_distant X deg pts test trial t s q r n n' C A1 A2 Hn Hn')) as Q.
      set (F := norm (factor _ _ _ _ _ _ _)) in *. set (u := norm (fs_basis test _ _ _ _ _ _)). set (v := norm (fs_basis trial _ _ _ _ _ _)).
      assert (U : 0 <= u) by apply norm_nonneg. assert (V0 : 0 <= v) by apply norm_nonneg. rewrite Rmult_1_l.
      set (j := cm_jdet _ n) in *. set (j' := cm_jdet _ n') in *.
      replace (F * u * v * (w' * j') * (w * j)) with (F * (u * v * (w' * j') * (w * j))) by ring.
      apply Rmult_le_compat_r; [|exact Q]. repeat apply Rmult_le_pos; auto.
Qed.

Theorem majorant rt rt' : legal_runtime (s_add E) rt -> legal_runtime Rplus rt' ->
  exists m w, assemble E X rt wmod O o trial test = Ok m /\ assemble reals X rt' wmod (laplace_single_layer ones) o (absolute_space norm trial) (absolute_space norm test) = Ok w /\
  forall i j, (i < global_size (fs_space test))%nat -> (j < global_size (fs_space trial))%nat ->
    exists v u, nth_error m (i + global_size (fs_space test) * j) = Some v /\ nth_error w (i + global_size (fs_space test) * j) = Some u /\
      forall c, (forall t s x p y q, carried test i t -> carried trial j s -> used_points X deg pts test trial t s x p y q ->
        norm (factor E (op_integrand O) (fun n => kn_value (op_kernel O) n (SpecLocal.position x p) (SpecLocal.position y q)) x p y q) <= c) -> norm v <= c * u.
Proof.
  intros L L'. destruct (va_exact _ _ V) as ((one & RT) & _).
  destruct (assembled E one RT X rt wmod O o deg pts ct test trial L D) as (m & val & Em & _ & Vm & H).
  destruct (assembled reals 1 reals_ring X rt' wmod Ones o deg pts ct atest atrial L' dense_absolute) as (w & val' & Ew & _ & Vw & H').
  exists m, w. split; [exact Em|]. split; [exact Ew|]. intros i j Hi Hj.
  eexists. eexists. split; [now apply H|]. split; [now apply H'|]. intros c K.
  unfold matrix_entry. apply norm_total. intros t Ht. apply in_seq in Ht. apply norm_total. intros s Hs. apply in_seq in Hs.
  apply norm_total. intros [a i'] Ha. apply In_enumerate in Ha. apply norm_total. intros [b j'] Hb. apply In_enumerate in Hb. cbn [fst snd] in *.
  assert (Z : norm (s_zero E) <= c * s_zero reals) by (rewrite (va_zero _ _ V); cbn; lra).
  destruct (Nat.eqb_spec i' i) as [->|]; destruct (Nat.eqb_spec j' j) as [->|]; cbn [andb]; try exact Z.
  assert (Ht' : (t < ent_count (fs_grid test) 2)%nat) by exact (proj2 Ht). assert (Hs' : (s < ent_count (fs_grid trial) 2)%nat) by exact (proj2 Hs).
  destruct (pair_bound c t s a b (val t s a b) Ht' Hs') as (u & U & B); auto.
  - intros x p y q. apply K; split; auto; eapply nth_error_In; eauto.
  - rewrite (pair_value_unique reals X _ deg pts atest atrial t s a b _ _ (Vw t s a b Ht' Hs') U). exact B.
Qed.
End Bound.
