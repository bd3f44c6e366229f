(** * Entries of distant cells of the built-in shapes and the degree of the regular rules *)
From Coq Require Import Reals Lra Psatz.
From Verif Require Import Base BaseFacts Topology TopologyFacts DofMap Process Space SpecSpace Options Adjacency SpecAdjacency Scalar Integrand CellPair Operators SpecLocal
  Interleave Assembly SpecAssembly AssemblyResults SpecTransfer SpecAlgebra SpecRounding RoundingModels SpecBroken SpecDof SpecGalerkin SpecMeasure Shapes SpecShapes ScreenFacts ShapesResults SpecSphere SpecScreen SpecWidth WidthResults
  SpecTurns TurnExamples SpecGauss GaussResults SpecShift SpecToeplitz ToeplitzResults SpecShare SphereGeometry SpecFloatSphere FloatSphereError SpecWaves SpecDecay DecayResults DecayPoints DecayShapes SpecMoments MomentResults MomentShapes
  SpecDegree DegreeResults DegreeExact.

Local Open Scope R_scope.
Local Notation dist := SpecWaves.distance.

Lemma root_of x y : 0 <= x -> x * x = y -> x = sqrt y.
Proof. intros P <-. now rewrite sqrt_square. Qed.

(** ** The sphere *)
Theorem sphere_integral (X : externals R) level id wmod e o deg pts (b : builder vec) (test trial : fspace R R) k :
  regular_sphere real_numbers level 1 = Ok b -> fs_grid test = built_grid id Triangle b -> fs_grid trial = built_grid id Triangle b ->
  dense_setting X wmod (laplace_single_layer (newton e)) o deg pts Triangle test trial ->
  positive_externals (Rle 0) X -> constants reals 1 test -> constants reals 1 trial ->
  interior_family (g_types (fs_grid test) 2) (fs_family test) -> interior_family (g_types (fs_grid trial) 2) (fs_family trial) ->
  flat_cells X (built_grid id Triangle b) b -> inside_rules X Triangle ->
  exact_to X Triangle (pts Triangle) k -> forall rt, legal_runtime Rplus rt ->
  exists m, assemble reals X rt wmod (laplace_single_layer (newton e)) o trial test = Ok m /\
  forall t s i j p q r p' q' r', corners_of b t p q r -> corners_of b s p' q' r' -> List.In i (dofs_at test t) -> List.In j (dofs_at trial s) ->
    let a := dist (centre Triangle p q r) (centre Triangle p' q' r') in let ratio := sqrt (32 / (3 * (4 ^ level + 2))) / a in sqrt (32 / (3 * (4 ^ level + 2))) < a ->
    exists v w, nth_error m (i + global_size (fs_space test) * j) = Some v /\ surface_integral Triangle p q r p' q' r' (newton e 0) w /\
      Rabs (v - w) <= 2 * (ratio ^ (k + 1) / (1 - ratio)) * (triangle_area p q r * triangle_area p' q' r' / (4 * PI * a)).
Proof.
  intros E Gt Gs D HX Ct Cs It Is Fl In Ex rt L.
  destruct (integral_entries X wmod e o deg pts Triangle test trial rt k D HX Ct Cs It Is (or_introl eq_refl) In Ex L) as (m & Em & H).
  exists m. split; [exact Em|]. intros t s i j p q r p' q' r' Co Co' Hi Hj a ratio Ha.
  assert (Hr : 0 <= sphere_radius level) by (unfold sphere_radius; pose proof (sqrt_pos (6 / (4 ^ level + 2))); lra).
  assert (Er : sphere_radius level + sphere_radius level = sqrt (32 / (3 * (4 ^ level + 2)))) by (apply root_of; [lra|apply radius_square]).
  destruct (H t s i j p q r p' q' r' (sphere_radius level) (sphere_radius level)) as (v & w & Ev & Iw & B); auto.
  - rewrite Gt. eapply corners_lt; eauto.
  - rewrite Gs. eapply corners_lt; eauto.
  - intros T. pose proof (sphere_touching level id b test trial E Gt t s p q r p' q' r' Co Co' T) as B. fold a in B. lra.
  - intros points. rewrite Gt. now apply Fl.
  - intros points. rewrite Gs. now apply Fl.
  - now apply (sphere_cell_radius level b E t).
  - now apply (sphere_cell_radius level b E s).
  - fold a. lra.
  - exists v, w. split; [exact Ev|]. split; [exact Iw|]. fold a in B. rewrite Er in B. fold ratio in B.
    assert (Ar : forall u v' w, triangle_area u v' w = cell_area Triangle u v' w) by (intros; unfold triangle_area, cell_area; cbn [reference_area]; field).
    rewrite !Ar. exact B.
Qed.

(** ** Screens *)
Theorem screen_integral (X : externals R) n id wmod ct e o deg pts (b : builder (nat * nat)) (test trial : fspace R R) k :
  screen n ct b -> fs_grid test = built_grid id ct b -> fs_grid trial = built_grid id ct b ->
  dense_setting X wmod (laplace_single_layer (newton e)) o deg pts ct test trial ->
  positive_externals (Rle 0) X -> constants reals 1 test -> constants reals 1 trial ->
  interior_family (g_types (fs_grid test) 2) (fs_family test) -> interior_family (g_types (fs_grid trial) 2) (fs_family trial) ->
  flat_screen n X (built_grid id ct b) b -> inside_rules X ct ->
  exact_to X ct (pts ct) k -> forall rt, legal_runtime Rplus rt ->
  exists m, assemble reals X rt wmod (laplace_single_layer (newton e)) o trial test = Ok m /\
  forall t s i j p q r p' q' r', corner b t 0 p -> corner b t 1 q -> corner b t 2 r -> corner b s 0 p' -> corner b s 1 q' -> corner b s 2 r' -> List.In i (dofs_at test t) -> List.In j (dofs_at trial s) ->
    let a := dist (centre ct (screen_position n p) (screen_position n q) (screen_position n r)) (centre ct (screen_position n p') (screen_position n q') (screen_position n r')) in
    let area := reference_area ct / (INR (n + 1) * INR (n + 1)) in let reach := sqrt (spread ct / 2) / INR (n + 1) in reach < a ->
    exists v w, nth_error m (i + global_size (fs_space test) * j) = Some v /\ surface_integral ct (screen_position n p) (screen_position n q) (screen_position n r) (screen_position n p') (screen_position n q') (screen_position n r') (newton e 0) w /\
      Rabs (v - w) <= 2 * ((reach / a) ^ (k + 1) / (1 - reach / a)) * (area * area / (4 * PI * a)).
Proof.
  intros Sn Gt Gs D HX Ct Cs It Is Fl In Ex rt L. pose proof (kind_of n ct b Sn) as K.
  destruct (integral_entries X wmod e o deg pts ct test trial rt k D HX Ct Cs It Is K In Ex L) as (m & Em & H).
  exists m. split; [exact Em|]. intros t s i j p q r p' q' r' C0 C1 C2 C0' C1' C2' Hi Hj a area reach Ha.
  destruct (screen_cell n ct b Sn t p q r C0 C1 C2) as (Q & Ar), (screen_cell n ct b Sn s p' q' r' C0' C1' C2') as (Q' & Ar').
  pose proof (side_positive n) as P. assert (Hr : 0 <= screen_radius n ct) by apply sqrt_pos.
  assert (Er : screen_radius n ct + screen_radius n ct = reach).
  { unfold reach. assert (Ps : 0 < spread ct) by (destruct ct; cbn; lra). transitivity (sqrt (spread ct / 2 / (INR (n + 1) * INR (n + 1)))); [apply root_of; [lra|apply screen_radius_square]|].
    rewrite sqrt_div by nra. rewrite sqrt_square by lra. reflexivity. }
  destruct (H t s i j (screen_position n p) (screen_position n q) (screen_position n r) (screen_position n p') (screen_position n q') (screen_position n r') (screen_radius n ct) (screen_radius n ct)) as (v & w & Ev & Iw & B); auto.
  - rewrite Gt, (screen_cell_count n id ct b Sn). destruct C0 as (vs & v & Ec & _). apply nth_error_Some. congruence.
  - rewrite Gs, (screen_cell_count n id ct b Sn). destruct C0' as (vs & v & Ec & _). apply nth_error_Some. congruence.
  - intros T. pose proof (screen_touching n id ct b test trial Sn Gt t s p q r p' q' r' C0 C1 C2 C0' C1' C2' T) as B. fold a in B. lra.
  - intros points. rewrite Gt. now apply Fl.
  - intros points. rewrite Gs. now apply Fl.
  - split; [|split]; eapply Q; eauto.
  - split; [|split]; eapply Q'; eauto.
  - fold a. lra.
  - exists v, w. split; [exact Ev|]. split; [exact Iw|]. fold a in B. rewrite Er, Ar, Ar' in B. exact B.
Qed.
