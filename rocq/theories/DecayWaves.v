(** * Entries of the single layer matrix of the Helmholtz equation *)
From Coq Require Import Reals Lra.
From Verif Require Import Base BaseFacts Topology TopologyFacts DofMap Process Space SpecSpace Options Adjacency SpecAdjacency Scalar Integrand CellPair Operators SpecLocal
  Interleave Assembly SpecAssembly AssemblyResults SpecTransfer SpecScalars SpecAlgebra SpecRounding RoundingModels SpecBroken SpecDof SpecGalerkin SpecMeasure MeasureResults BrokenResults Shapes SpecShapes SpecSphere SpecScreen SpecWidth
  SpecTurns TurnExamples SpecGauss SpecShift SpecToeplitz SpecShare SpecWaves WaveResults WaveLimits WavePositive SpecDecay DecayResults DecayPoints DecayShapes DecayScreen.

Local Open Scope R_scope.

Lemma Forall2_bound {A B : Type} (P : A -> B -> Prop) l l' i y : Forall2 P l l' -> nth_error l' i = Some y -> exists x, nth_error l i = Some x /\ P x y.
Proof. intros H. revert i. induction H as [|a c l l' Hac H IH]; intros [|i] E; try discriminate; cbn in *; [injection E as <-; eauto|auto]. Qed.

(** The change of an entry with the wavenumber. *)
Theorem constants_change : forall (X : externals R) wmod o deg pts ct (test trial : fspace R R) (test' trial' : fspace (R * R) R) rt e k k' mu det det' n n',
  positive_externals (Rle 0) X -> positive_basis (Rle 0) X test -> positive_basis (Rle 0) X trial ->
  mapped_space embed_real test test' -> mapped_space embed_real trial trial' -> legal_runtime (s_add complexes) rt -> nonzero_determinants X ->
  dense_setting X wmod (laplace_single_layer (newton e)) o deg pts ct test trial -> constants reals 1 test -> constants reals 1 trial ->
  interior_family (g_types (fs_grid test) 2) (fs_family test) -> interior_family (g_types (fs_grid trial) 2) (fs_family trial) ->
  flat_faces reals X (fs_grid test) ct det n -> flat_faces reals X (fs_grid trial) ct det' n' -> full_weights reals X ct deg pts mu ->
  exists m m', assemble complexes X rt wmod (helmholtz_single_layer (waves e) k) o trial' test' = Ok m /\
    assemble complexes X rt wmod (helmholtz_single_layer (waves e) k') o trial' test' = Ok m' /\
    forall t s i j, (t < ent_count (fs_grid test) 2)%nat -> (s < ent_count (fs_grid trial) 2)%nat -> In i (dofs_at test t) -> In j (dofs_at trial s) ->
      exists x x', nth_error m (i + global_size (fs_space test) * j) = Some x /\ nth_error m' (i + global_size (fs_space test) * j) = Some x' /\
        cnorm (s_sub complexes x x') <= Rabs (k - k') / (4 * PI) * ((mu * det t) * (mu * det' s)).
Proof.
  intros X wmod o deg pts ct test trial test' trial' rt e k k' mu det det' n n' HX Bt Bs Mt Ms L N D Ct Cs It Is Ft Fs W.
  assert (D1 : dense_setting X wmod (laplace_single_layer ones) o deg pts ct test trial) by exact (dense_ones X wmod (laplace_single_layer (newton e)) o deg pts ct test trial D).
  destruct (positive_change X wmod o deg pts ct test trial test' trial' HX Bt Bs Mt Ms (sequential Rplus) rt e k k' (sequential_legal Rplus) L N D1) as (b & m & m' & Eb & E & E' & Wi).
  exists m, m'. split; [exact E|]. split; [exact E'|]. intros t s i j Ht Hs Hi Hj.
  destruct (exact_measured_entries R R reals X (sequential Rplus) wmod (laplace_single_layer ones) o deg pts ct test trial 1 mu (fun _ => 1) det det' n n') as (b' & E2 & H2); auto using sequential_legal.
  all: try apply reals_exact.
  { intros x. cbn. ring. }
  { intros q x y _. reflexivity. }
  assert (b' = b) by congruence. subst b'. specialize (H2 t s i j Ht Hs Hi Hj). unfold measure in H2. cbn [laplace_single_layer op_integrand face_value s_mul reals] in H2. rewrite Rmult_1_r in H2.
  destruct Wi as (L1 & L2 & B). rewrite map_length in L2.
  assert (Lt : (i + global_size (fs_space test) * j < length b)%nat) by (apply nth_error_Some; congruence).
  destruct (nth_error m (i + global_size (fs_space test) * j)) as [x|] eqn:Ex; [|apply nth_error_None in Ex; lia].
  destruct (nth_error m' (i + global_size (fs_space test) * j)) as [x'|] eqn:Ex'; [|apply nth_error_None in Ex'; lia].
  exists x, x'. split; [reflexivity|]. split; [reflexivity|]. exact (B _ _ _ _ Ex Ex' (map_nth_error _ _ _ H2)).
Qed.

Theorem sphere_waves : forall (X : externals R) level id wmod e k o deg pts b (test trial : fspace R R) (test' trial' : fspace (R * R) R) rt,
  regular_sphere real_numbers level 1 = Ok b -> fs_grid test = built_grid id Triangle b -> fs_grid trial = built_grid id Triangle b ->
  dense_setting X wmod (laplace_single_layer (newton e)) o deg pts Triangle test trial ->
  positive_externals (Rle 0) X -> positive_basis (Rle 0) X test -> positive_basis (Rle 0) X trial -> constants reals 1 test -> constants reals 1 trial ->
  interior_family (g_types (fs_grid test) 2) (fs_family test) -> interior_family (g_types (fs_grid trial) 2) (fs_family trial) ->
  flat_cells X (built_grid id Triangle b) b -> triangle_weights X -> inside_rules X Triangle ->
  mapped_space embed_real test test' -> mapped_space embed_real trial trial' -> legal_runtime (s_add complexes) rt -> nonzero_determinants X ->
  exists m, assemble complexes X rt wmod (helmholtz_single_layer (waves e) k) o trial' test' = Ok m /\
  forall t s i j p q r p' q' r', neighbours (built_grid id Triangle b) (built_grid id Triangle b) t s = Ok false ->
    corners_of b t p q r -> corners_of b s p' q' r' -> In i (dofs_at test t) -> In j (dofs_at trial s) ->
    exists x, nth_error m (i + global_size (fs_space test) * j) = Some x /\ cnorm x <= 5 * 2 ^ level * (triangle_area p q r * triangle_area p' q' r' / (8 * PI)).
Proof.
  intros X level id wmod e k o deg pts b test trial test' trial' rt E Gt Gs D HX Bt Bs Ct Cs It Is Fl Tw In Mt Ms L N.
  destruct (sphere_far X level id wmod e o deg pts b test trial E Gt Gs D HX Bt Bs Ct Cs It Is Fl Tw In (sequential Rplus) (sequential_legal Rplus)) as (m & Em & H).
  destruct (positive_dominated X wmod o deg pts Triangle test trial test' trial' HX Bt Bs Mt Ms (sequential Rplus) rt e k (sequential_legal Rplus) L N D) as (m0 & m' & Em0 & Em' & F).
  assert (m0 = m) by congruence. subst m0. exists m'. split; [exact Em'|]. intros t s i j p q r p' q' r' Ne Co Co' Hi Hj.
  destruct (H t s i j p q r p' q' r' Ne Co Co' Hi Hj) as (v & Ev & _ & B). destruct (Forall2_bound _ _ _ _ _ F Ev) as (x & Ex & Bx). exists x. split; [exact Ex|]. lra.
Qed.

Theorem screen_waves : forall (X : externals R) n id wmod ct e k o deg pts b (test trial : fspace R R) (test' trial' : fspace (R * R) R) rt,
  screen n ct b -> fs_grid test = built_grid id ct b -> fs_grid trial = built_grid id ct b -> flat_screen n X (built_grid id ct b) b -> area_weights X ct -> inside_rules X ct ->
  dense_setting X wmod (laplace_single_layer (newton e)) o deg pts ct test trial ->
  positive_externals (Rle 0) X -> positive_basis (Rle 0) X test -> positive_basis (Rle 0) X trial -> constants reals 1 test -> constants reals 1 trial ->
  interior_family (g_types (fs_grid test) 2) (fs_family test) -> interior_family (g_types (fs_grid trial) 2) (fs_family trial) ->
  mapped_space embed_real test test' -> mapped_space embed_real trial trial' -> legal_runtime (s_add complexes) rt -> nonzero_determinants X ->
  exists m, assemble complexes X rt wmod (helmholtz_single_layer (waves e) k) o trial' test' = Ok m /\
  forall t s i j, (t < length (cells_of b))%nat -> (s < length (cells_of b))%nat -> In i (dofs_at test t) -> In j (dofs_at trial s) ->
    neighbours (built_grid id ct b) (built_grid id ct b) t s = Ok false ->
    let area := reference_area ct / (INR (n + 1) * INR (n + 1)) in
    exists x, nth_error m (i + global_size (fs_space test) * j) = Some x /\ cnorm x <= area * area * INR (n + 1) / (4 * PI * gap ct).
Proof.
  intros X n id wmod ct e k o deg pts b test trial test' trial' rt Sn Gt Gs Fl Aw In D HX Bt Bs Ct Cs It Is Mt Ms L N.
  destruct (screen_between X n id wmod ct e o deg pts b test trial Sn Gt Gs Fl Aw In D HX Bt Bs Ct Cs It Is (sequential Rplus) (sequential_legal Rplus)) as (m & Em & H).
  destruct (positive_dominated X wmod o deg pts ct test trial test' trial' HX Bt Bs Mt Ms (sequential Rplus) rt e k (sequential_legal Rplus) L N D) as (m0 & m' & Em0 & Em' & F).
  assert (m0 = m) by congruence. subst m0. exists m'. split; [exact Em'|]. intros t s i j Ht Hs Hi Hj Ne. cbv zeta.
  destruct (H t s i j Ht Hs Hi Hj) as (v & Ev & _ & B). destruct (B Ne) as (_ & B'). destruct (Forall2_bound _ _ _ _ _ F Ev) as (x & Ex & Bx). exists x. split; [exact Ex|]. eapply Rle_trans; [exact Bx|exact B'].
Qed.
