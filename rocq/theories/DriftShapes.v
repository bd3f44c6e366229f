(** * Helmholtz double layer entries of functions on distant cells of spheres *)
From Coq Require Import Reals Lra Psatz.
From Verif Require Import Base BaseFacts Topology TopologyFacts DofMap DofMapFacts DofMapResults DofExamples Process Space SpecSpace Options Adjacency SpecAdjacency Scalar Integrand CellPair Operators SpecLocal
  Interleave Assembly SpecAssembly AssemblyResults SpecTransfer SpecScalars SpecAlgebra SpecRounding RoundingModels SpecBroken SpecDof SpecGalerkin GalerkinResults BrokenResults SpecMeasure Shapes SpecShapes ScreenFacts ShapesResults SpecSphere SpecScreen SpecWidth WidthResults
  SpecTurns TurnExamples SpecGauss GaussResults SpecShift SpecToeplitz ToeplitzResults SpecShare SphereGeometry SpecFloatSphere FloatSphereError SpecWaves WaveLimits SpecDecay DecayResults DecayPoints DecayShapes SpecMoments MomentResults MomentShapes
  SpecDegree DegreeResults DegreeExact DegreeShapes SpecPieces PieceResults PieceShapes FluxKernel SpecFluxes FluxResults SpecSwirls SwirlResults SwirlShapes EchoResults DriftResults.

Local Open Scope R_scope.
Local Notation dist := SpecWaves.distance.

Theorem sphere_drift_double : forall (X : externals R) level id wmod e kappa o deg pts (b : builder vec) (test trial : fspace R R) (test' trial' : fspace (R * R) R) P F F' k d,
  regular_sphere real_numbers level 1 = Ok b -> fs_grid test = built_grid id Triangle b -> fs_grid trial = built_grid id Triangle b ->
  dense_setting X wmod (laplace_double_layer (newton e)) o deg pts Triangle test trial -> mapped_space embed_real test test' -> mapped_space embed_real trial trial' ->
  positive_externals (Rle 0) X -> inside_rules X Triangle -> exact_to X Triangle (pts Triangle) (k + d + 1) -> flat_cells X (built_grid id Triangle b) b ->
  element_functions test Triangle d F -> element_functions trial Triangle d F' -> (forall t p q r, corners_of b t p q r -> P t = (p, q, r)) ->
  forall rt, legal_runtime (s_add complexes) rt ->
  exists m, assemble complexes X rt wmod (helmholtz_double_layer (waves e) kappa) o trial' test' = Ok m /\
  forall t s i j p q r p' q' r' M M' sigma, corners_of b t p q r -> corners_of b s p' q' r' -> In i (dofs_at test t) -> In j (dofs_at trial s) ->
    (forall z x y, In z (support test i) -> inside Triangle x y -> Rabs (piece test F i z x y) <= M) ->
    (forall z x y, In z (support trial j) -> inside Triangle x y -> Rabs (piece trial F' j z x y) <= M') ->
    let reach := 3 * sqrt (32 / (3 * (4 ^ level + 2))) in let a := dist (centre Triangle p q r) (centre Triangle p' q' r') in reach < a -> 0 < sigma < 1 -> reach / a <= sigma * sigma ->
    exists v w w', nth_error m (i + global_size (fs_space test) * j) = Some v /\ double_integral Triangle test trial F F' P P (fun n x y => fst (waves e kappa n x y)) i j w /\ double_integral Triangle test trial F F' P P (fun n x y => snd (waves e kappa n x y)) i j w' /\
      let bound := 6 * (1 + reach / a) * sigma ^ (k + 1) / ((1 - sigma) ^ 3) * exp (2 * (Rabs kappa * (a + reach) / sigma)) * (Rabs e * (M * support_area test Triangle P i * (M' * support_area trial Triangle P j)) / (4 * PI * (a * a))) in
      Rabs (fst v - w) <= bound /\ Rabs (snd v - w') <= bound.
Proof.
  intros X level id wmod e kappa o deg pts b test trial test' trial' P F F' k d E Gt Gs D Mt Ms HX Ins Ex Fl Ef Ef' Hp rt L.
  assert (FG : flat_grid X (built_grid id Triangle b) Triangle P).
  { intros t Ht points. destruct (sphere_cells level id b E) as (Nc & Hc). rewrite Nc in Ht. destruct (Hc t Ht) as (p & q & r & Co & _). rewrite (Hp t p q r Co). cbn. now apply Fl. }
  destruct (drifts_double X wmod e kappa o deg pts Triangle test trial test' trial' P P F F' k d D (or_introl eq_refl) Mt Ms HX Ins Ex Ef Ef') with (rt := rt) as (m & Em & H); [now rewrite Gt|now rewrite Gs|exact L|].
  exists m. split; [exact Em|]. intros t s i j p q r p' q' r' M M' sigma Co Co' Hi Hj Bd Bd' reach a Ha Hs Rs.
  assert (Sp : serial_space test) by apply (dn_test _ _ _ _ _ _ _ _ _ D). assert (Sp' : serial_space trial) by apply (dn_trial _ _ _ _ _ _ _ _ _ D).
  assert (Lt : (t < ent_count (fs_grid test) 2)%nat) by (rewrite Gt; eapply corners_lt; eauto). assert (Ls : (s < ent_count (fs_grid test) 2)%nat) by (rewrite Gt; eapply corners_lt; eauto).
  assert (Hr : 0 <= sphere_radius level) by (unfold sphere_radius; pose proof (sqrt_pos (6 / (4 ^ level + 2))); lra).
  assert (Er : 3 * sphere_radius level + 3 * sphere_radius level = reach).
  { unfold reach. transitivity (3 * (sphere_radius level + sphere_radius level)); [ring|]. f_equal. apply root_of; [lra|apply radius_square]. }
  destruct (sphere_near level id b P test E Gt Hp) as (Ball & Close). assert (Gr : fs_grid trial = fs_grid test) by congruence.
  pose proof (near_supported Triangle P _ _ test Ball Close test i t Sp eq_refl Lt Hi) as S1. pose proof (near_supported Triangle P _ _ test Ball Close trial j s Sp' Gr Ls Hj) as S2.
  pose proof (near_apart _ _ test trial Sp Sp' Gr Close i j t s Lt Ls Hi Hj) as Na.
  cbv beta in S1, S2, Na. rewrite (Hp t p q r Co) in S1. rewrite (Hp s p' q' r' Co') in S2. rewrite (Hp t p q r Co), (Hp s p' q' r' Co') in Na. cbn [first_corner second_corner third_corner fst snd] in S1, S2, Na. fold a in Na.
  destruct (H i j _ _ _ _ M M' sigma (serial_lt test Sp t i Lt Hi) (serial_lt trial Sp' s j ltac:(now rewrite Gr) Hj) S1 S2 (Na ltac:(lra)) Bd Bd' ltac:(fold a; lra) Hs ltac:(fold a; rewrite Er; exact Rs)) as (v & w & w' & Ev & Iw & Iw' & B).
  exists v, w, w'. split; [exact Ev|]. split; [exact Iw|]. split; [exact Iw'|]. cbv zeta in B |- *. fold a in B. now rewrite Er in B.
Qed.

Theorem sphere_drift_adjoint : forall (X : externals R) level id wmod e kappa o deg pts (b : builder vec) (test trial : fspace R R) (test' trial' : fspace (R * R) R) P F F' k d,
  regular_sphere real_numbers level 1 = Ok b -> fs_grid test = built_grid id Triangle b -> fs_grid trial = built_grid id Triangle b ->
  dense_setting X wmod (laplace_adjoint_double_layer (newton e)) o deg pts Triangle test trial -> mapped_space embed_real test test' -> mapped_space embed_real trial trial' ->
  positive_externals (Rle 0) X -> inside_rules X Triangle -> exact_to X Triangle (pts Triangle) (k + d + 1) -> flat_cells X (built_grid id Triangle b) b ->
  element_functions test Triangle d F -> element_functions trial Triangle d F' -> (forall t p q r, corners_of b t p q r -> P t = (p, q, r)) ->
  forall rt, legal_runtime (s_add complexes) rt ->
  exists m, assemble complexes X rt wmod (helmholtz_adjoint_double_layer (waves e) kappa) o trial' test' = Ok m /\
  forall t s i j p q r p' q' r' M M' sigma, corners_of b t p q r -> corners_of b s p' q' r' -> In i (dofs_at test t) -> In j (dofs_at trial s) ->
    (forall z x y, In z (support test i) -> inside Triangle x y -> Rabs (piece test F i z x y) <= M) ->
    (forall z x y, In z (support trial j) -> inside Triangle x y -> Rabs (piece trial F' j z x y) <= M') ->
    let reach := 3 * sqrt (32 / (3 * (4 ^ level + 2))) in let a := dist (centre Triangle p q r) (centre Triangle p' q' r') in reach < a -> 0 < sigma < 1 -> reach / a <= sigma * sigma ->
    exists v w w', nth_error m (i + global_size (fs_space test) * j) = Some v /\ adjoint_integral Triangle test trial F F' P P (fun n x y => fst (waves e kappa n x y)) i j w /\ adjoint_integral Triangle test trial F F' P P (fun n x y => snd (waves e kappa n x y)) i j w' /\
      let bound := 6 * (1 + reach / a) * sigma ^ (k + 1) / ((1 - sigma) ^ 3) * exp (2 * (Rabs kappa * (a + reach) / sigma)) * (Rabs e * (M * support_area test Triangle P i * (M' * support_area trial Triangle P j)) / (4 * PI * (a * a))) in
      Rabs (fst v - w) <= bound /\ Rabs (snd v - w') <= bound.
Proof.
  intros X level id wmod e kappa o deg pts b test trial test' trial' P F F' k d E Gt Gs D Mt Ms HX Ins Ex Fl Ef Ef' Hp rt L.
  assert (FG : flat_grid X (built_grid id Triangle b) Triangle P).
  { intros t Ht points. destruct (sphere_cells level id b E) as (Nc & Hc). rewrite Nc in Ht. destruct (Hc t Ht) as (p & q & r & Co & _). rewrite (Hp t p q r Co). cbn. now apply Fl. }
  destruct (drifts_adjoint X wmod e kappa o deg pts Triangle test trial test' trial' P P F F' k d D (or_introl eq_refl) Mt Ms HX Ins Ex Ef Ef') with (rt := rt) as (m & Em & H); [now rewrite Gt|now rewrite Gs|exact L|].
  exists m. split; [exact Em|]. intros t s i j p q r p' q' r' M M' sigma Co Co' Hi Hj Bd Bd' reach a Ha Hs Rs.
  assert (Sp : serial_space test) by apply (dn_test _ _ _ _ _ _ _ _ _ D). assert (Sp' : serial_space trial) by apply (dn_trial _ _ _ _ _ _ _ _ _ D).
  assert (Lt : (t < ent_count (fs_grid test) 2)%nat) by (rewrite Gt; eapply corners_lt; eauto). assert (Ls : (s < ent_count (fs_grid test) 2)%nat) by (rewrite Gt; eapply corners_lt; eauto).
  assert (Hr : 0 <= sphere_radius level) by (unfold sphere_radius; pose proof (sqrt_pos (6 / (4 ^ level + 2))); lra).
  assert (Er : 3 * sphere_radius level + 3 * sphere_radius level = reach).
  { unfold reach. transitivity (3 * (sphere_radius level + sphere_radius level)); [ring|]. f_equal. apply root_of; [lra|apply radius_square]. }
  destruct (sphere_near level id b P test E Gt Hp) as (Ball & Close). assert (Gr : fs_grid trial = fs_grid test) by congruence.
  pose proof (near_supported Triangle P _ _ test Ball Close test i t Sp eq_refl Lt Hi) as S1. pose proof (near_supported Triangle P _ _ test Ball Close trial j s Sp' Gr Ls Hj) as S2.
  pose proof (near_apart _ _ test trial Sp Sp' Gr Close i j t s Lt Ls Hi Hj) as Na.
  cbv beta in S1, S2, Na. rewrite (Hp t p q r Co) in S1. rewrite (Hp s p' q' r' Co') in S2. rewrite (Hp t p q r Co), (Hp s p' q' r' Co') in Na. cbn [first_corner second_corner third_corner fst snd] in S1, S2, Na. fold a in Na.
  destruct (H i j _ _ _ _ M M' sigma (serial_lt test Sp t i Lt Hi) (serial_lt trial Sp' s j ltac:(now rewrite Gr) Hj) S1 S2 (Na ltac:(lra)) Bd Bd' ltac:(fold a; lra) Hs ltac:(fold a; rewrite Er; exact Rs)) as (v & w & w' & Ev & Iw & Iw' & B).
  exists v, w, w'. split; [exact Ev|]. split; [exact Iw|]. split; [exact Iw'|]. cbv zeta in B |- *. fold a in B. now rewrite Er in B.
Qed.
