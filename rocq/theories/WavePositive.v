(** * The single layer operator without negative data *)
From Coq Require Import Reals Lra.
From Verif Require Import Base BaseFacts Topology DofMap Space Options Scalar Integrand CellPair Operators SpecLocal LocalResults Interleave Assembly SpecAssembly AssemblyResults
  SpecOrder SpecTransfer SpecScalars ScalarsResults SpecOperators SpecRounding RoundingResults RoundingModels RoundingPositive SpecWaves KernelResults WaveKernel WaveResults WaveLimits.
Local Open Scope R_scope.

Lemma id_map : scalar_map absolute absolute (fun r : R => r).
Proof. constructor; reflexivity. Qed.

Lemma cnorm_embed r : cnorm (embed_real r) = Rabs r.
Proof. apply cnorm_eq; [apply Rabs_pos|]. cbn. rewrite <- Rabs_mult, Rabs_pos_eq; [ring|]. pose proof (Rle_0_sqr r). unfold Rsqr in *. lra. Qed.

Section Positive.
Context (X : externals R) (wmod : nat) (o : options) (deg : cell_type -> cell_type -> nat) (pts : cell_type -> nat) (ct : cell_type)
  (test trial : fspace R R) (test' trial' : fspace (R * R) R).
Context (HX : positive_externals (Rle 0) X) (Bt : positive_basis (Rle 0) X test) (Bs : positive_basis (Rle 0) X trial).
Context (Mt : mapped_space embed_real test test') (Ms : mapped_space embed_real trial trial').

Lemma bound_is_matrix (G : @green R R) rt rt' : legal_runtime Rplus rt -> legal_runtime Rplus rt' ->
  dense_setting X wmod (laplace_single_layer G) o deg pts ct test trial -> (forall n x y, n = 0%nat -> 0 <= G n x y) ->
  exists b, assemble reals X rt wmod (laplace_single_layer G) o trial test = Ok b /\
    assemble absolute X rt' wmod (laplace_single_layer (fun n x y => Rabs (G n x y))) o (absolute_space cnorm trial') (absolute_space cnorm test') = Ok b.
Proof.
  intros L L' D P.
  destruct (positive_absolute X wmod G o deg pts ct test trial rt (sequential Rplus) L (sequential_legal Rplus) D HX) as (b & E1 & _ & E2); auto.
  exists b. split; [exact E1|].
  assert (Mw : forall fs fs', mapped_space embed_real fs fs' -> mapped_space (fun r : R => r) (absolute_space Rabs fs) (absolute_space cnorm fs')).
  { intros fs fs' [A1 A2 A3 A4 A5 A6]. constructor; cbn; auto. intros. rewrite A6. apply cnorm_embed. }
  assert (Ma : forall fs, mapped_space Rabs fs (absolute_space Rabs fs)) by (intros; constructor; reflexivity).
  assert (F : fitting (@laplace_single_layer R R (fun n x y => Rabs (G n x y)))) by (apply (shipped_fitting reals); constructor).
  assert (DA : dense_setting X wmod (absolute_operator Rabs (laplace_single_layer G)) o deg pts ct (absolute_space Rabs test) (absolute_space Rabs trial)).
  { apply (mapped_setting Rabs X wmod (laplace_single_layer G) (absolute_operator Rabs (laplace_single_layer G)) o deg pts ct test trial); auto. }
  destruct (change_of_scalars absolute absolute (fun r => r) X wmod (absolute_operator Rabs (laplace_single_layer G)) (laplace_single_layer (fun n x y => Rabs (G n x y)))
    o deg pts ct (absolute_space Rabs test) (absolute_space Rabs trial) (absolute_space cnorm test') (absolute_space cnorm trial') (sequential Rplus) rt') as (b' & E3 & E4);
    auto using id_map, sequential_legal.
  { intros i x y. reflexivity. }
  rewrite map_id in E4. rewrite E2 in E3. injection E3 as <-. exact E4.
Qed.

(** A kernel without negative values instead of its absolute values. *)
Lemma bound_kernel (G : @green R R) rt' b : legal_runtime Rplus rt' ->
  dense_setting X wmod (laplace_single_layer G) o deg pts ct test trial -> (forall n x y, n = 0%nat -> 0 <= G n x y) ->
  assemble absolute X rt' wmod (laplace_single_layer (fun n x y => Rabs (G n x y))) o (absolute_space cnorm trial') (absolute_space cnorm test') = Ok b ->
  forall b', assemble absolute X rt' wmod (laplace_single_layer G) o (absolute_space cnorm trial') (absolute_space cnorm test') = Ok b' -> b' = b.
Proof.
  intros L D P E b' E'.
  set (pos := fun x y : R => x = y).
  assert (Mw : forall fs fs', mapped_space embed_real fs fs' -> mapped_space Rabs fs (absolute_space cnorm fs')).
  { intros fs fs' [A1 A2 A3 A4 A5 A6]. constructor; cbn; auto. intros. rewrite A6. apply cnorm_embed. }
  assert (DS : forall G0 : @green R R, dense_setting X wmod (laplace_single_layer G0) o deg pts ct (absolute_space cnorm test') (absolute_space cnorm trial')).
  { intros G0. apply (mapped_setting Rabs X wmod (laplace_single_layer G) (laplace_single_layer G0) o deg pts ct test trial); auto. apply (shipped_fitting reals); constructor. }
  assert (RA : related_arithmetic eq eq eq absolute absolute) by (constructor; intros; subst; reflexivity).
  assert (RO : related_operations eq eq eq absolute absolute) by (constructor; intros; subst; reflexivity).
  destruct (TransferResults.transfer_matrix eq eq eq eq eq absolute absolute RA) with (X := X) (X' := X) (wmod := wmod) (wmod' := wmod)
    (O := laplace_single_layer G) (O' := laplace_single_layer (fun n x y => Rabs (G n x y))) (o := o) (o' := o) (deg := deg) (pts := pts) (ct := ct)
    (test := absolute_space cnorm test') (trial := absolute_space cnorm trial') (test' := absolute_space cnorm test') (trial' := absolute_space cnorm trial')
    (rt := rt') (rt' := rt') as (m & m' & F1 & F2 & F3); auto.
  - now repeat split.
  - now repeat split.
  - constructor.
    + intros t n q q' A A'. assert (q' = q) by congruence. subst. split; auto. apply eq_lists.
    + intros k d p n q q' A A'. assert (q' = q) by congruence. subst. repeat split; auto. apply eq_lists.
    + intros g t points points' c p <- _ _. now repeat split.
  - assert (K : forall n x y, (n < 1)%nat -> G n x y = Rabs (G n x y)) by (intros n x y Hn; rewrite Rabs_pos_eq; auto; apply P; lia).
    constructor; cbn [laplace_single_layer op_kernel kn_value op_deriv_size]; intros; cbn zeta.
    + assert (qt' = qt) by congruence. assert (qs' = qs) by congruence. subst qt' qs'. now apply K.
    + assert (q' = q) by congruence. subst q'. now apply K.
  - intros t points points' d p i <- _ _ _. reflexivity.
  - intros t points points' d p i <- _ _ _. reflexivity.
  - apply (TransferResults.related_form_value _ _ _ _ _ _ RA); [exact RO|exact I].
  - assert (m = b') by congruence. assert (m' = b) by congruence. subst m m'. clear - F3. induction F3; congruence.
Qed.

Theorem positive_dominated rt rt' e k : legal_runtime Rplus rt -> legal_runtime (s_add complexes) rt' -> nonzero_determinants X ->
  dense_setting X wmod (laplace_single_layer (newton e)) o deg pts ct test trial ->
  exists m m', assemble reals X rt wmod (laplace_single_layer (newton e)) o trial test = Ok m /\
    assemble complexes X rt' wmod (helmholtz_single_layer (waves e) k) o trial' test' = Ok m' /\ Forall2 (fun x y => cnorm x <= y) m' m.
Proof.
  intros L L' N D.
  assert (P : forall n x y, n = 0%nat -> 0 <= newton e n x y) by (intros n x y ->; apply newton_nonneg).
  assert (D' : dense_setting X wmod (helmholtz_single_layer (waves e) k) o deg pts ct test' trial').
  { apply (mapped_setting embed_real X wmod (laplace_single_layer (newton e)) (helmholtz_single_layer (waves e) k) o deg pts ct test trial); auto. apply (shipped_fitting complexes); constructor. }
  destruct (bound_is_matrix (newton e) rt (sequential Rplus) L (sequential_legal Rplus) D P) as (b & E1 & E2).
  destruct (single_dominated X rt' (sequential Rplus) wmod e o deg pts ct test' trial' L' (sequential_legal Rplus) N k D') as (m & b' & E3 & E4 & F).
  assert (b' = b) by (apply (bound_kernel (newton e) (sequential Rplus) b); auto using sequential_legal). subst b'. exists b, m. auto.
Qed.

Theorem positive_change rt rt' e k k' : legal_runtime Rplus rt -> legal_runtime (s_add complexes) rt' -> nonzero_determinants X ->
  dense_setting X wmod (laplace_single_layer ones) o deg pts ct test trial ->
  exists b m m', assemble reals X rt wmod (laplace_single_layer ones) o trial test = Ok b /\
    assemble complexes X rt' wmod (helmholtz_single_layer (waves e) k) o trial' test' = Ok m /\
    assemble complexes X rt' wmod (helmholtz_single_layer (waves e) k') o trial' test' = Ok m' /\
    within cnorm complexes m m' (map (Rmult (Rabs (k - k') / (4 * PI))) b).
Proof.
  intros L L' N D.
  assert (P : forall n (x y : R * R * R), n = 0%nat -> 0 <= ones n x y) by (intros n x y _; unfold ones; lra).
  assert (D' : dense_setting X wmod (helmholtz_single_layer (waves e) k) o deg pts ct test' trial').
  { apply (mapped_setting embed_real X wmod (laplace_single_layer ones) (helmholtz_single_layer (waves e) k) o deg pts ct test trial); auto. apply (shipped_fitting complexes); constructor. }
  destruct (bound_is_matrix ones rt (sequential Rplus) L (sequential_legal Rplus) D P) as (b & E1 & E2).
  destruct (single_change X rt' (sequential Rplus) wmod e o deg pts ct test' trial' L' (sequential_legal Rplus) N k k' D') as (m & m' & b' & E3 & E4 & E5 & W).
  assert (b' = b) by (apply (bound_kernel ones (sequential Rplus) b); auto using sequential_legal). subst b'. exists b, m, m'. auto.
Qed.
End Positive.
