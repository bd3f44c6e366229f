(** * Double layer entries of functions on distant cells of spheres *)
From Coq Require Import Reals Lra Psatz.
From Verif Require Import Base BaseFacts Topology TopologyFacts DofMap Process Space SpecSpace Options Adjacency SpecAdjacency Scalar Integrand CellPair Operators SpecLocal
  Interleave Assembly SpecAssembly AssemblyResults SpecTransfer SpecAlgebra SpecRounding RoundingModels SpecBroken SpecDof SpecGalerkin GalerkinResults BrokenResults SpecMeasure Shapes SpecShapes ScreenFacts ShapesResults SpecSphere SpecScreen SpecWidth WidthResults
  SpecTurns TurnExamples SpecGauss GaussResults SpecShift SpecToeplitz ToeplitzResults SpecShare SphereGeometry SpecFloatSphere FloatSphereError SpecWaves SpecDecay DecayResults DecayPoints DecayShapes SpecMoments MomentResults MomentShapes
  SpecDegree DegreeResults DegreeExact DegreeShapes SpecPieces PieceResults PieceShapes FluxKernel SpecFluxes FluxResults.

Local Open Scope R_scope.
Local Notation dist := SpecWaves.distance.

Theorem sphere_double : forall (X : externals R) level id wmod e o deg pts (b : builder vec) (test trial : fspace R R) P F F' k d,
  regular_sphere real_numbers level 1 = Ok b -> fs_grid test = built_grid id Triangle b -> fs_grid trial = built_grid id Triangle b ->
  dense_setting X wmod (laplace_double_layer (newton e)) o deg pts Triangle test trial ->
  positive_externals (Rle 0) X -> inside_rules X Triangle -> exact_to X Triangle (pts Triangle) (k + d + 1) -> flat_cells X (built_grid id Triangle b) b ->
  interior_family (g_types (fs_grid test) 2) (fs_family test) -> interior_family (g_types (fs_grid trial) 2) (fs_family trial) ->
  element_functions test Triangle d F -> element_functions trial Triangle d F' -> (forall t p q r, corners_of b t p q r -> P t = (p, q, r)) ->
  forall rt, legal_runtime Rplus rt ->
  exists m, assemble reals X rt wmod (laplace_double_layer (newton e)) o trial test = Ok m /\
  forall t s i j p q r p' q' r' M M' sigma, corners_of b t p q r -> corners_of b s p' q' r' -> In i (dofs_at test t) -> In j (dofs_at trial s) ->
    (forall x y, inside Triangle x y -> Rabs (piece test F i t x y) <= M) -> (forall x y, inside Triangle x y -> Rabs (piece trial F' j s x y) <= M') ->
    let reach := sqrt (32 / (3 * (4 ^ level + 2))) in let a := dist (centre Triangle p q r) (centre Triangle p' q' r') in reach < a -> reach / a < sigma < 1 ->
    exists v w, nth_error m (i + global_size (fs_space test) * j) = Some v /\ double_integral Triangle test trial F F' P P (newton e) i j w /\
      Rabs (v - w) <= 6 * (1 + reach / a) * (reach / a / sigma) ^ (k + 1) / ((1 - sigma) ^ 3) * (Rabs e * (M * triangle_area p q r * (M' * triangle_area p' q' r')) / (4 * PI * (a * a))).
Proof.
  intros X level id wmod e o deg pts b test trial P F F' k d E Gt Gs D HX Ins Ex Fl Fi Fi' Ef Ef' Hp rt L.
  assert (FG : flat_grid X (built_grid id Triangle b) Triangle P).
  { intros t Ht points. destruct (sphere_cells level id b E) as (Nc & Hc). rewrite Nc in Ht. destruct (Hc t Ht) as (p & q & r & Co & _). rewrite (Hp t p q r Co). cbn. now apply Fl. }
  destruct (double_entries X wmod e o deg pts Triangle test trial P P F F' k d D (or_introl eq_refl) HX Ins Ex Ef Ef') with (rt := rt) as (m & Em & H); [now rewrite Gt|now rewrite Gs|exact L|].
  exists m. split; [exact Em|]. intros t s i j p q r p' q' r' M M' sigma Co Co' Hi Hj Bd Bd' reach a Ha Hs.
  assert (Sp : serial_space test) by apply (dn_test _ _ _ _ _ _ _ _ _ D). assert (Sp' : serial_space trial) by apply (dn_trial _ _ _ _ _ _ _ _ _ D).
  assert (Lt : (t < ent_count (fs_grid test) 2)%nat) by (rewrite Gt; eapply corners_lt; eauto). assert (Ls : (s < ent_count (fs_grid trial) 2)%nat) by (rewrite Gs; eapply corners_lt; eauto).
  pose proof (one_cell test i t Sp Fi Lt Hi) as S1. pose proof (one_cell trial j s Sp' Fi' Ls Hj) as S2.
  assert (Hr : 0 <= sphere_radius level) by (unfold sphere_radius; pose proof (sqrt_pos (6 / (4 ^ level + 2))); lra).
  assert (Er : sphere_radius level + sphere_radius level = reach) by (apply root_of; [lra|apply radius_square]).
  assert (Ar : forall u v' w, triangle_area u v' w = cell_area Triangle u v' w) by (intros; unfold triangle_area, cell_area; cbn [reference_area]; field).
  assert (A1 : support_area test Triangle P i = triangle_area p q r) by (unfold support_area; rewrite S1; cbn [map fold_right]; rewrite (Hp t p q r Co), Ar; cbn [first_corner second_corner third_corner fst snd]; ring).
  assert (A2 : support_area trial Triangle P j = triangle_area p' q' r') by (unfold support_area; rewrite S2; cbn [map fold_right]; rewrite (Hp s p' q' r' Co'), Ar; cbn [first_corner second_corner third_corner fst snd]; ring).
  destruct (H i j (centre Triangle p q r) (centre Triangle p' q' r') (sphere_radius level) (sphere_radius level) M M' sigma) as (v & w & Ev & Iw & B).
  - apply (serial_lt test Sp t i Lt Hi).
  - apply (serial_lt trial Sp' s j Ls Hj).
  - intros z. rewrite S1. intros [<-|[]]. rewrite (Hp t p q r Co). apply cell_points; auto. now apply (sphere_cell_radius level b E t).
  - intros z. rewrite S2. intros [<-|[]]. rewrite (Hp s p' q' r' Co'). apply cell_points; auto. now apply (sphere_cell_radius level b E s).
  - intros z z'. rewrite S1, S2. intros [<-|[]] [<-|[]] T. pose proof (sphere_touching level id b test trial E Gt t s p q r p' q' r' Co Co' T) as B. fold a in B. lra.
  - intros z x y. rewrite S1. intros [<-|[]]. apply Bd.
  - intros z x y. rewrite S2. intros [<-|[]]. apply Bd'.
  - fold a. lra.
  - fold a. now rewrite Er.
  - exists v, w. split; [exact Ev|]. split; [exact Iw|]. cbv zeta in B. fold a in B. now rewrite Er, A1, A2 in B.
Qed.

Theorem sphere_adjoint : forall (X : externals R) level id wmod e o deg pts (b : builder vec) (test trial : fspace R R) P F F' k d,
  regular_sphere real_numbers level 1 = Ok b -> fs_grid test = built_grid id Triangle b -> fs_grid trial = built_grid id Triangle b ->
  dense_setting X wmod (laplace_adjoint_double_layer (newton e)) o deg pts Triangle test trial ->
  positive_externals (Rle 0) X -> inside_rules X Triangle -> exact_to X Triangle (pts Triangle) (k + d + 1) -> flat_cells X (built_grid id Triangle b) b ->
  interior_family (g_types (fs_grid test) 2) (fs_family test) -> interior_family (g_types (fs_grid trial) 2) (fs_family trial) ->
  element_functions test Triangle d F -> element_functions trial Triangle d F' -> (forall t p q r, corners_of b t p q r -> P t = (p, q, r)) ->
  forall rt, legal_runtime Rplus rt ->
  exists m, assemble reals X rt wmod (laplace_adjoint_double_layer (newton e)) o trial test = Ok m /\
  forall t s i j p q r p' q' r' M M' sigma, corners_of b t p q r -> corners_of b s p' q' r' -> In i (dofs_at test t) -> In j (dofs_at trial s) ->
    (forall x y, inside Triangle x y -> Rabs (piece test F i t x y) <= M) -> (forall x y, inside Triangle x y -> Rabs (piece trial F' j s x y) <= M') ->
    let reach := sqrt (32 / (3 * (4 ^ level + 2))) in let a := dist (centre Triangle p q r) (centre Triangle p' q' r') in reach < a -> reach / a < sigma < 1 ->
    exists v w, nth_error m (i + global_size (fs_space test) * j) = Some v /\ adjoint_integral Triangle test trial F F' P P (newton e) i j w /\
      Rabs (v - w) <= 6 * (1 + reach / a) * (reach / a / sigma) ^ (k + 1) / ((1 - sigma) ^ 3) * (Rabs e * (M * triangle_area p q r * (M' * triangle_area p' q' r')) / (4 * PI * (a * a))).
Proof.
  intros X level id wmod e o deg pts b test trial P F F' k d E Gt Gs D HX Ins Ex Fl Fi Fi' Ef Ef' Hp rt L.
  assert (FG : flat_grid X (built_grid id Triangle b) Triangle P).
  { intros t Ht points. destruct (sphere_cells level id b E) as (Nc & Hc). rewrite Nc in Ht. destruct (Hc t Ht) as (p & q & r & Co & _). rewrite (Hp t p q r Co). cbn. now apply Fl. }
  destruct (adjoint_entries X wmod e o deg pts Triangle test trial P P F F' k d D (or_introl eq_refl) HX Ins Ex Ef Ef') with (rt := rt) as (m & Em & H); [now rewrite Gt|now rewrite Gs|exact L|].
  exists m. split; [exact Em|]. intros t s i j p q r p' q' r' M M' sigma Co Co' Hi Hj Bd Bd' reach a Ha Hs.
  assert (Sp : serial_space test) by apply (dn_test _ _ _ _ _ _ _ _ _ D). assert (Sp' : serial_space trial) by apply (dn_trial _ _ _ _ _ _ _ _ _ D).
  assert (Lt : (t < ent_count (fs_grid test) 2)%nat) by (rewrite Gt; eapply corners_lt; eauto). assert (Ls : (s < ent_count (fs_grid trial) 2)%nat) by (rewrite Gs; eapply corners_lt; eauto).
  pose proof (one_cell test i t Sp Fi Lt Hi) as S1. pose proof (one_cell trial j s Sp' Fi' Ls Hj) as S2.
  assert (Hr : 0 <= sphere_radius level) by (unfold sphere_radius; pose proof (sqrt_pos (6 / (4 ^ level + 2))); lra).
  assert (Er : sphere_radius level + sphere_radius level = reach) by (apply root_of; [lra|apply radius_square]).
  assert (Ar : forall u v' w, triangle_area u v' w = cell_area Triangle u v' w) by (intros; unfold triangle_area, cell_area; cbn [reference_area]; field).
  assert (A1 : support_area test Triangle P i = triangle_area p q r) by (unfold support_area; rewrite S1; cbn [map fold_right]; rewrite (Hp t p q r Co), Ar; cbn [first_corner second_corner third_corner fst snd]; ring).
  assert (A2 : support_area trial Triangle P j = triangle_area p' q' r') by (unfold support_area; rewrite S2; cbn [map fold_right]; rewrite (Hp s p' q' r' Co'), Ar; cbn [first_corner second_corner third_corner fst snd]; ring).
  destruct (H i j (centre Triangle p q r) (centre Triangle p' q' r') (sphere_radius level) (sphere_radius level) M M' sigma) as (v & w & Ev & Iw & B).
  - apply (serial_lt test Sp t i Lt Hi).
  - apply (serial_lt trial Sp' s j Ls Hj).
  - intros z. rewrite S1. intros [<-|[]]. rewrite (Hp t p q r Co). apply cell_points; auto. now apply (sphere_cell_radius level b E t).
  - intros z. rewrite S2. intros [<-|[]]. rewrite (Hp s p' q' r' Co'). apply cell_points; auto. now apply (sphere_cell_radius level b E s).
  - intros z z'. rewrite S1, S2. intros [<-|[]] [<-|[]] T. pose proof (sphere_touching level id b test trial E Gt t s p q r p' q' r' Co Co' T) as B. fold a in B. lra.
  - intros z x y. rewrite S1. intros [<-|[]]. apply Bd.
  - intros z x y. rewrite S2. intros [<-|[]]. apply Bd'.
  - fold a. lra.
  - fold a. now rewrite Er.
  - exists v, w. split; [exact Ev|]. split; [exact Iw|]. cbv zeta in B. fold a in B. now rewrite Er, A1, A2 in B.
Qed.
