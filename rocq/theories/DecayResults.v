(** * Entries of the single layer matrix between bounds of the kernel *)
From Coq Require Import Reals Lra.
From Verif Require Import Base BaseFacts Topology TopologyFacts DofMap DofMapFacts SpecDof DofMapResults Process Space SpecSpace Options
  Adjacency SpecAdjacency Scalar Integrand CellPair Operators SpecLocal LocalFacts LocalResults Interleave Assembly SpecAssembly
  AssemblyFacts AssemblySingular AssemblyDense AssemblyExact AssemblyResults SpecAlgebra AlgebraFacts AlgebraResults
  SpecBroken BrokenResults SpecTransfer SpecRounding RoundingModels SpecDigits SpecGalerkin GalerkinResults SpecMeasure MeasureResults TurnExamples SpecWaves SpecDecay.

Local Open Scope R_scope.

Lemma reals_ring : Ring_theory.ring_theory (s_zero reals) 1 (s_add reals) (s_mul reals) (s_sub reals) (s_neg reals) eq.
Proof. constructor; cbn; intros; ring. Qed.

Lemma real_total_le {A : Type} (f g : A -> R) l : (forall a, In a l -> f a <= g a) -> total reals l f <= total reals l g.
Proof.
  induction l as [|a l IH]; intros H; [cbn; lra|]. rewrite !AssemblyExact.total_cons. cbn [s_add reals].
  apply Rplus_le_compat; [apply H; now left|apply IH; intros; apply H; now right].
Qed.

Lemma real_total_mul {A : Type} c (f : A -> R) l : total reals l (fun a => c * f a) = c * total reals l f.
Proof. exact (total_mul reals 1 reals_ring l c f). Qed.

(** [v] is at least, or at most, [c] times [u]. *)
Definition bounds (lower : bool) (c u v : R) : Prop := if lower then c * u <= v else v <= c * u.

Lemma total_bounds {A : Type} lower c (f g : A -> R) l : (forall a, In a l -> bounds lower c (g a) (f a)) -> bounds lower c (total reals l g) (total reals l f).
Proof. intros H. unfold bounds in *. destruct lower; rewrite <- real_total_mul; apply real_total_le; intros a Ha; apply H, Ha. Qed.

Section Decay.
Context (X : externals R) (wmod : nat) (O : operator R R) (o : options) (deg : cell_type -> cell_type -> nat) (pts : cell_type -> nat) (ct : cell_type)
  (test trial : fspace R R).
Context (D : dense_setting X wmod O o deg pts ct test trial) (Hf : op_integrand O = SingleLayer).
Context (HX : positive_externals (Rle 0) X) (Bt : positive_basis (Rle 0) X test) (Bs : positive_basis (Rle 0) X trial).

Lemma dense_ones : dense_setting X wmod (with_kernel O ones) o deg pts ct test trial.
Proof. destruct D as [A1 A2 A3 A4 A5 A6 A7 A8 A9 B1 B2 B3 B4 B5 B6 B7 B8]. constructor; auto. Qed.

Lemma basis_positive (fs : fspace R R) t points p a : positive_basis (Rle 0) X fs -> rule_points X points -> (2 * p < length points)%nat ->
  (a < el_dim (fs_family fs t))%nat -> 0 <= fs_basis fs t points 0 p a 0.
Proof. intros H. apply H. Qed.

Lemma term_bounds lower c k u v d f : bounds lower c 1 k -> 0 <= u -> 0 <= v -> 0 <= d -> 0 <= f -> bounds lower c (1 * u * v * d * f) (k * u * v * d * f).
Proof.
  intros K U V C E. assert (P : 0 <= u * v * d * f) by (repeat apply Rmult_le_pos; auto). unfold bounds in *.
  replace (c * (1 * u * v * d * f)) with (c * 1 * (u * v * d * f)) by ring. replace (k * u * v * d * f) with (k * (u * v * d * f)) by ring.
  destruct lower; now apply Rmult_le_compat_r.
Qed.

Lemma pair_bounds lower c t s a b v : (t < ent_count (fs_grid test) 2)%nat -> (s < ent_count (fs_grid trial) 2)%nat ->
  (a < el_dim (fs_family test (g_ctype (fs_grid test) t)))%nat -> (b < el_dim (fs_family trial (g_ctype (fs_grid trial) s)))%nat ->
  (forall x y, evaluated X deg pts test trial t s x y -> bounds lower c 1 (kn_value (op_kernel O) 0 x y)) ->
  pair_value reals X O deg pts test trial t s a b v ->
  exists w, pair_value reals X (with_kernel O ones) deg pts test trial t s a b w /\ bounds lower c w v.
Proof.
  intros Ht Hs Ha Hb K. pose proof (dn_proper _ _ _ _ _ _ _ _ _ D) as [P1 P2].
  intros [(C & p & k & d & q & A1 & A2 & A3 & A4 & ->)|(C & q & r & A1 & A2 & ->)].
  - assert (G : fs_grid test = fs_grid trial) by (apply (dn_same _ _ _ _ _ _ _ _ _ D), C).
    destruct (P2 _ _ _ _ _ A4) as (L1 & L2).
    eexists. split.
    + left. split; [exact C|]. exists p, k, d, q. repeat (split; [assumption|]). reflexivity.
    + cbn [with_kernel op_integrand op_kernel kn_value]. rewrite Hf, !(pairwise_total reals 1 reals_ring). apply total_bounds. intros [n w] Hw. apply In_enumerate in Hw. cbn [fst snd] in Hw.
      assert (Hn : (n < length (pq_weights q))%nat) by (apply nth_error_Some; congruence).
      unfold pairwise_term. cbn [integrand_value fst snd s_mul s_cast r_mul reals]. unfold ones.
      assert (R1 : rule_points X (pq_test q)) by (right; eauto 10). assert (R2 : rule_points X (pq_trial q)) by (right; exists k, d, p, (deg (g_ctype (fs_grid test) t) (g_ctype (fs_grid test) s)), q; auto).
      assert (W : 0 <= w) by (pose proof (px_duffy _ _ HX _ _ _ _ _ A4) as F; rewrite Forall_forall in F; apply F; eapply nth_error_In; eauto).
      assert (J1 : 0 <= cm_jdet (x_geometry X (fs_grid test) (g_ctype (fs_grid test) t) (pq_test q) t) n) by (apply (px_geometry _ _ HX); auto; lia).
      assert (J2 : 0 <= cm_jdet (x_geometry X (fs_grid test) (g_ctype (fs_grid test) s) (pq_trial q) s) n) by (apply (px_geometry _ _ HX); auto; [lia|congruence]).
      assert (U : 0 <= fs_basis test (g_ctype (fs_grid test) t) (pq_test q) 0 n a 0) by (apply basis_positive; auto; lia).
      assert (V : 0 <= fs_basis trial (g_ctype (fs_grid test) s) (pq_trial q) 0 n b 0) by (apply basis_positive; auto; [lia|congruence]).
      assert (Q := K _ _ (evaluated_touching X deg pts test trial t s p k d q n C A1 A2 A3 A4 Hn)).
      assert (Z : 0 <= w * (cm_jdet (x_geometry X (fs_grid test) (g_ctype (fs_grid test) t) (pq_test q) t) n * cm_jdet (x_geometry X (fs_grid test) (g_ctype (fs_grid test) s) (pq_trial q) s) n)) by (repeat apply Rmult_le_pos; auto).
      pose proof (term_bounds lower c _ _ _ _ 1 Q U V Z Rle_0_1) as I1. rewrite !Rmult_1_r in I1. exact I1.
  - destruct (P1 _ _ _ A1) as (L1 & L2), (P1 _ _ _ A2) as (L3 & L4).
    eexists. split.
    + right. split; [exact C|]. exists q, r. repeat (split; [assumption|]). reflexivity.
    + cbn [with_kernel op_integrand op_kernel kn_value]. rewrite Hf, !(tensor_total reals 1 reals_ring). apply total_bounds. intros [n w] Hw. apply In_enumerate in Hw. cbn [fst snd] in Hw.
      apply total_bounds. intros [n' w'] Hw'. apply In_enumerate in Hw'. cbn [fst snd] in Hw'.
      assert (Hn : (n < length (qd_weights q))%nat) by (apply nth_error_Some; congruence). assert (Hn' : (n' < length (qd_weights r))%nat) by (apply nth_error_Some; congruence).
      unfold tensor_term. cbn [integrand_value fst snd s_mul s_cast r_mul reals]. unfold ones.
      assert (R1 : rule_points X (qd_points q)) by (left; eauto 10). assert (R2 : rule_points X (qd_points r)) by (left; eauto 10).
      assert (W : 0 <= w) by (pose proof (px_simplex _ _ HX _ _ _ A1) as F; rewrite Forall_forall in F; apply F; eapply nth_error_In; eauto).
      assert (W' : 0 <= w') by (pose proof (px_simplex _ _ HX _ _ _ A2) as F; rewrite Forall_forall in F; apply F; eapply nth_error_In; eauto).
      assert (Q := K _ _ (evaluated_distant X deg pts test trial t s q r n n' C A1 A2 Hn Hn')).
      apply term_bounds; auto.
      * apply basis_positive; auto; lia.
      * apply basis_positive; auto; lia.
      * apply Rmult_le_pos; auto. apply (px_geometry _ _ HX); auto; lia.
      * apply Rmult_le_pos; auto. apply (px_geometry _ _ HX); auto; lia.
Qed.

Lemma one_sided rt : legal_runtime Rplus rt -> exists m w, assemble reals X rt wmod O o trial test = Ok m /\ assemble reals X rt wmod (with_kernel O ones) o trial test = Ok w /\
  forall i j, (i < global_size (fs_space test))%nat -> (j < global_size (fs_space trial))%nat ->
    exists v u, nth_error m (i + global_size (fs_space test) * j) = Some v /\ nth_error w (i + global_size (fs_space test) * j) = Some u /\
      forall lower c, (forall t s x y, carried test i t -> carried trial j s -> evaluated X deg pts test trial t s x y -> bounds lower c 1 (kn_value (op_kernel O) 0 x y)) ->
        bounds lower c u v.
Proof.
  intros L.
  destruct (assembled reals 1 reals_ring X rt wmod O o deg pts ct test trial L D) as (m & val & E & _ & V & H).
  destruct (assembled reals 1 reals_ring X rt wmod _ o deg pts ct test trial L dense_ones) as (w & val' & E' & _ & V' & H').
  exists m, w. split; [exact E|]. split; [exact E'|]. intros i j Hi Hj.
  eexists. eexists. split; [now apply H|]. split; [now apply H'|]. intros lower c K.
  unfold matrix_entry. apply total_bounds. intros t Ht. apply in_seq in Ht. apply total_bounds. intros s Hs. apply in_seq in Hs.
  apply total_bounds. intros [a i'] Ha. apply In_enumerate in Ha. apply total_bounds. intros [b j'] Hb. apply In_enumerate in Hb. cbn [fst snd] in *.
  destruct (Nat.eqb_spec i' i) as [->|]; destruct (Nat.eqb_spec j' j) as [->|]; cbn [andb]; try (destruct lower; cbn; lra).
  assert (Ht' : (t < ent_count (fs_grid test) 2)%nat) by lia. assert (Hs' : (s < ent_count (fs_grid trial) 2)%nat) by lia.
  assert (Sa : serial_space test) by apply D. assert (Sb : serial_space trial) by apply D.
  destruct (pair_bounds lower c t s a b (val t s a b) Ht' Hs') as (u & U & B); auto.
  - rewrite <- (dofs_at_dim test t) by (auto; apply D). apply nth_error_Some. congruence.
  - rewrite <- (dofs_at_dim trial s) by (auto; apply D). apply nth_error_Some. congruence.
  - intros x y. apply K; split; auto; eapply nth_error_In; eauto.
  - rewrite (pair_value_unique reals X _ deg pts test trial t s a b _ _ (V' t s a b Ht' Hs') U). exact B.
Qed.

Theorem two_sided rt : legal_runtime Rplus rt -> exists m w, assemble reals X rt wmod O o trial test = Ok m /\ assemble reals X rt wmod (with_kernel O ones) o trial test = Ok w /\
  forall i j, (i < global_size (fs_space test))%nat -> (j < global_size (fs_space trial))%nat ->
    exists v u, nth_error m (i + global_size (fs_space test) * j) = Some v /\ nth_error w (i + global_size (fs_space test) * j) = Some u /\
      (forall lo, (forall t s x y, carried test i t -> carried trial j s -> evaluated X deg pts test trial t s x y -> lo <= kn_value (op_kernel O) 0 x y) -> lo * u <= v) /\
      (forall hi, (forall t s x y, carried test i t -> carried trial j s -> evaluated X deg pts test trial t s x y -> kn_value (op_kernel O) 0 x y <= hi) -> v <= hi * u).
Proof.
  intros L. destruct (one_sided rt L) as (m & w & E & E' & H). exists m, w. split; [exact E|]. split; [exact E'|]. intros i j Hi Hj.
  destruct (H i j Hi Hj) as (v & u & Hv & Hu & B). exists v, u. split; [exact Hv|]. split; [exact Hu|]. split.
  - intros lo K. apply (B true lo). intros. cbn [bounds]. rewrite Rmult_1_r. eapply K; eauto.
  - intros hi K. apply (B false hi). intros. cbn [bounds]. rewrite Rmult_1_r. eapply K; eauto.
Qed.

(** Constants on flat cells. *)
Theorem constants_between rt mu det det' n n' : legal_runtime Rplus rt -> constants reals 1 test -> constants reals 1 trial ->
  interior_family (g_types (fs_grid test) 2) (fs_family test) -> interior_family (g_types (fs_grid trial) 2) (fs_family trial) ->
  flat_faces reals X (fs_grid test) ct det n -> flat_faces reals X (fs_grid trial) ct det' n' -> full_weights reals X ct deg pts mu ->
  exists m, assemble reals X rt wmod O o trial test = Ok m /\
  forall t s i j, (t < ent_count (fs_grid test) 2)%nat -> (s < ent_count (fs_grid trial) 2)%nat -> In i (dofs_at test t) -> In j (dofs_at trial s) ->
    exists v, nth_error m (i + global_size (fs_space test) * j) = Some v /\
      (forall lo, (forall x y, evaluated X deg pts test trial t s x y -> lo <= kn_value (op_kernel O) 0 x y) -> lo * ((mu * det t) * (mu * det' s)) <= v) /\
      (forall hi, (forall x y, evaluated X deg pts test trial t s x y -> kn_value (op_kernel O) 0 x y <= hi) -> v <= hi * ((mu * det t) * (mu * det' s))).
Proof.
  intros L Ct Cs It Is Ft Fs W. destruct (two_sided rt L) as (m & w & E & E' & H). exists m. split; [exact E|].
  intros t s i j Ht Hs Hi Hj.
  destruct (exact_measured_entries R R reals X rt wmod (with_kernel O ones) o deg pts ct test trial 1 mu (fun _ => 1) det det' n n') as (w' & E2 & H2); auto using dense_ones.
  all: try apply reals_exact.
  { intros x. cbn. ring. }
  { intros k x y _. reflexivity. }
  assert (w' = w) by congruence. subst w'. specialize (H2 t s i j Ht Hs Hi Hj). unfold measure in H2. cbn [with_kernel op_integrand] in H2. rewrite Hf in H2. cbn [face_value s_mul reals] in H2.
  assert (U : forall t' s', carried test i t' -> carried trial j s' -> t' = t /\ s' = s).
  { intros t' s' (Ht' & Ci) (Hs' & Cj). split; [eapply (serial_disjoint test)|eapply (serial_disjoint trial)]; eauto; apply D. }
  destruct (H i j) as (v & u & Hv & Hu & B1 & B2).
  - eapply serial_lt; eauto; apply D.
  - eapply serial_lt; eauto; apply D.
  - exists v. split; [exact Hv|]. rewrite H2 in Hu. injection Hu as <-. rewrite Rmult_1_r in B1, B2. split; intros c K; [apply B1|apply B2]; intros t' s' x y C1 C2; destruct (U t' s' C1 C2) as (-> & ->); apply K.
Qed.
End Decay.
