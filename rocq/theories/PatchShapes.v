(** * Entries of distant vertices of the shapes and the integrals *)
From Coq Require Import Reals Lra Psatz Permutation.
From Verif Require Import Base BaseFacts Topology TopologyFacts DofMap SpecDof Process Space Options SpecOptions Scalar Integrand CellPair Operators SpecLocal Interleave Assembly SpecAssembly
  Shapes SpecShapes SphereFacts SphereSurface SphereResults ScreenFacts ScreenEdges SpecSphere SpecScreen ScreenGeometry SpecWidth WidthResults SpecVolume VolumeResults AdjacencyFacts CountsSphere SpecDigits DigitsFacts
  SpecNested NestedResults SpecSymmetry SpecAutomorphism SpecTurns SpecShift SpecToeplitz
  SpecConvex ConvexSphere ConvexResults GaussResults OptionsResults Adjacency SpecAdjacency AdjacencyExamples AssemblyResults AssemblyDense SpecShapeSpaces ShapeSpacesResults ShapesResults SpecAlgebra SpecRounding SpecGalerkin
  SpecOperators DimensionResults LocalResults SpecCounts CountsResults TestsResults SpecTransfer SpecMeasure SpecShare SphereGeometry SpecFloatSphere FloatSphere FloatSphereNear FloatSphereError SpecWaves SpecDecay DecayResults DecayPoints SpecMoments MomentResults MomentShapes
  SpecDefinite DefiniteResults DefiniteShapes SpecDegree SpecRims RimKernel RimResults RimShapes SpecPatches PatchResults.

Local Open Scope R_scope.
Local Notation dist := SpecWaves.distance.

Lemma rims_scaled T g V z z' h a v w : 0 <= T -> 0 < a -> half_rim g V z <= 3 * h -> half_rim g V z' <= 3 * h ->
  Rabs (v - w) <= 2 * T * (half_rim g V z * half_rim g V z' / (4 * PI * a)) -> Rabs (v - w) <= 2 * T * (9 * (h * h) / (4 * PI * a)).
Proof.
  intros PT Pa H H' B. eapply Rle_trans; [exact B|]. pose proof (half_rim_nonneg g V z). pose proof (half_rim_nonneg g V z'). pose proof PI_RGT_0.
  apply Rmult_le_compat_l; [lra|]. unfold Rdiv. apply Rmult_le_compat_r; [left; apply Rinv_0_lt_compat, Rmult_lt_0_compat; lra|]. nra.
Qed.

Lemma tail_positive h a k : 0 <= h -> 2 * h < a -> 0 < a /\ 0 <= (2 * h / a) ^ k / (1 - 2 * h / a).
Proof.
  intros Hh Ha. assert (Pa : 0 < a) by lra. split; [exact Pa|].
  assert (0 <= 2 * h / a < 1). { split; [unfold Rdiv; apply Rmult_le_pos; [lra|left; now apply Rinv_0_lt_compat]|]. apply (Rmult_lt_reg_r a); [lra|]. unfold Rdiv. rewrite Rmult_assoc, Rinv_l by lra. lra. }
  unfold Rdiv at 1. apply Rmult_le_pos; [apply pow_le; lra|left; apply Rinv_0_lt_compat; lra].
Qed.

(** The sphere. *)
Theorem sphere_patches : forall (X : externals R) level id wmod e o deg pts (b : builder vec) (test trial : fspace R R) k,
  regular_sphere real_numbers level 1 = Ok b -> fs_grid test = built_grid id Triangle b -> fs_grid trial = built_grid id Triangle b ->
  positive_externals (Rle 0) X -> inside_rules X Triangle -> flat_cells X (built_grid id Triangle b) b ->
  fs_family test = lagrange 1 -> fs_family trial = lagrange 1 -> linear_functions test -> linear_functions trial -> forall rt, legal_runtime Rplus rt ->
  let V := SpecSphere.position (points_of b) in let h := sqrt (6 / (4 ^ level + 2)) in
  (dense_setting X wmod (laplace_single_layer (newton e)) o deg pts Triangle test trial -> exact_to X Triangle (pts Triangle) (k + 1) ->
   exists m, assemble reals X rt wmod (laplace_single_layer (newton e)) o trial test = Ok m /\
   forall z z' i j, listed (sp_dofmap (fs_space test)) 0 z 0 i -> listed (sp_dofmap (fs_space trial)) 0 z' 0 j ->
     let a := dist (V z) (V z') in let ratio := 2 * h / a in 2 * h < a ->
     exists v w, nth_error m (i + global_size (fs_space test) * j) = Some v /\ hats_integral (fs_grid test) V (newton e 0) z z' w /\
       Rabs (v - w) <= 2 * (ratio ^ (k + 1) / (1 - ratio)) * (patch_area (fs_grid test) V z / 3 * (patch_area (fs_grid test) V z' / 3) / (4 * PI * a))) /\
  (dense_setting X wmod (laplace_hypersingular (newton e)) o deg pts Triangle test trial -> exact_to X Triangle (pts Triangle) k ->
   exists m, assemble reals X rt wmod (laplace_hypersingular (newton e)) o trial test = Ok m /\
   forall z z' i j, listed (sp_dofmap (fs_space test)) 0 z 0 i -> listed (sp_dofmap (fs_space trial)) 0 z' 0 j ->
     let a := dist (V z) (V z') in let ratio := 2 * h / a in 2 * h < a ->
     exists v w, nth_error m (i + global_size (fs_space test) * j) = Some v /\ curls_integral (fs_grid test) V (newton e 0) z z' w /\
       Rabs (v - w) <= 2 * (ratio ^ (k + 1) / (1 - ratio)) * (9 * (h * h) / (4 * PI * a))).
Proof.
  intros X level id wmod e o deg pts b test trial k E G G' HX Ins Fc Fa Fa' Li Li' rt L V h.
  assert (Eg : fs_grid trial = fs_grid test) by congruence.
  assert (Fl : flat_triangles X (fs_grid test) V) by (rewrite G; exact (sphere_flat level id b E X Fc)).
  assert (Pr : proper_triangles (fs_grid test) V) by (rewrite G; exact (sphere_proper level id b E)).
  assert (Rm : forall z, half_rim (fs_grid test) V z <= 3 * h /\ reach (fs_grid test) V z h) by (intros z; rewrite G; destruct (sphere_rims level id b E z) as (_ & Q); exact Q).
  assert (Hh : 0 <= h) by apply sqrt_pos. split; intros D Ex.
  - destruct (hats_entries X wmod e o deg pts test trial V k D HX Ins Ex Eg Fa Fa' Li Li' Fl rt L) as (m & Em & H). exists m. split; [exact Em|].
    intros z z' i j Lz Lz' a ratio Far. assert (E2 : h + h = 2 * h) by ring. destruct (Rm z) as (_ & R1), (Rm z') as (_ & R2).
    destruct (H z z' i j h h Lz Lz' R1 R2 ltac:(rewrite E2; exact Far)) as (v & w & Ev & Iw & B). rewrite E2 in B. exists v, w. auto.
  - destruct (curls_entries X wmod e o deg pts test trial V k D HX Ins Ex Eg Fa Fa' Li Li' Fl Pr rt L) as (m & Em & H). exists m. split; [exact Em|].
    intros z z' i j Lz Lz' a ratio Far. assert (E2 : h + h = 2 * h) by ring. destruct (Rm z) as (Q1 & R1), (Rm z') as (Q2 & R2).
    destruct (H z z' i j h h Lz Lz' R1 R2 ltac:(rewrite E2; exact Far)) as (v & w & Ev & Iw & B). rewrite E2 in B. exists v, w. split; [exact Ev|]. split; [exact Iw|].
    destruct (tail_positive h a (k + 1) Hh Far) as (Pa & PT). exact (rims_scaled _ _ _ z z' h a v w PT Pa Q1 Q2 B).
Qed.

(** Screens of triangles. *)
Theorem screen_patches : forall (X : externals R) n id wmod e o deg pts (b : builder (nat * nat)) (test trial : fspace R R) k,
  screen_triangles n = Ok b -> fs_grid test = built_grid id Triangle b -> fs_grid trial = built_grid id Triangle b ->
  positive_externals (Rle 0) X -> inside_rules X Triangle -> flat_screen n X (built_grid id Triangle b) b ->
  fs_family test = lagrange 1 -> fs_family trial = lagrange 1 -> linear_functions test -> linear_functions trial -> forall rt, legal_runtime Rplus rt ->
  let V := SpecSphere.position (screen_positions n b) in let h := sqrt 2 / INR (n + 1) in
  (dense_setting X wmod (laplace_single_layer (newton e)) o deg pts Triangle test trial -> exact_to X Triangle (pts Triangle) (k + 1) ->
   exists m, assemble reals X rt wmod (laplace_single_layer (newton e)) o trial test = Ok m /\
   forall z z' i j, listed (sp_dofmap (fs_space test)) 0 z 0 i -> listed (sp_dofmap (fs_space trial)) 0 z' 0 j ->
     let a := dist (V z) (V z') in let ratio := 2 * h / a in 2 * h < a ->
     exists v w, nth_error m (i + global_size (fs_space test) * j) = Some v /\ hats_integral (fs_grid test) V (newton e 0) z z' w /\
       Rabs (v - w) <= 2 * (ratio ^ (k + 1) / (1 - ratio)) * (patch_area (fs_grid test) V z / 3 * (patch_area (fs_grid test) V z' / 3) / (4 * PI * a))) /\
  (dense_setting X wmod (laplace_hypersingular (newton e)) o deg pts Triangle test trial -> exact_to X Triangle (pts Triangle) k ->
   exists m, assemble reals X rt wmod (laplace_hypersingular (newton e)) o trial test = Ok m /\
   forall z z' i j, listed (sp_dofmap (fs_space test)) 0 z 0 i -> listed (sp_dofmap (fs_space trial)) 0 z' 0 j ->
     let a := dist (V z) (V z') in let ratio := 2 * h / a in 2 * h < a ->
     exists v w, nth_error m (i + global_size (fs_space test) * j) = Some v /\ curls_integral (fs_grid test) V (newton e 0) z z' w /\
       Rabs (v - w) <= 2 * (ratio ^ (k + 1) / (1 - ratio)) * (9 * (h * h) / (4 * PI * a))).
Proof.
  intros X n id wmod e o deg pts b test trial k E G G' HX Ins Fc Fa Fa' Li Li' rt L V h.
  assert (Eg : fs_grid trial = fs_grid test) by congruence.
  assert (Fl : flat_triangles X (fs_grid test) V) by (rewrite G; exact (screen_flat n id b E X Fc)).
  assert (Pr : proper_triangles (fs_grid test) V) by (rewrite G; exact (screen_proper n id b E)).
  assert (Rm : forall z, half_rim (fs_grid test) V z <= 3 * h /\ reach (fs_grid test) V z h) by (intros z; rewrite G; exact (screen_reach n id b E z)).
  assert (Hh : 0 <= h) by (unfold h, Rdiv; apply Rmult_le_pos; [apply sqrt_pos|left; apply Rinv_0_lt_compat, lt_0_INR; lia]). split; intros D Ex.
  - destruct (hats_entries X wmod e o deg pts test trial V k D HX Ins Ex Eg Fa Fa' Li Li' Fl rt L) as (m & Em & H). exists m. split; [exact Em|].
    intros z z' i j Lz Lz' a ratio Far. assert (E2 : h + h = 2 * h) by ring. destruct (Rm z) as (_ & R1), (Rm z') as (_ & R2).
    destruct (H z z' i j h h Lz Lz' R1 R2 ltac:(rewrite E2; exact Far)) as (v & w & Ev & Iw & B). rewrite E2 in B. exists v, w. auto.
  - destruct (curls_entries X wmod e o deg pts test trial V k D HX Ins Ex Eg Fa Fa' Li Li' Fl Pr rt L) as (m & Em & H). exists m. split; [exact Em|].
    intros z z' i j Lz Lz' a ratio Far. assert (E2 : h + h = 2 * h) by ring. destruct (Rm z) as (Q1 & R1), (Rm z') as (Q2 & R2).
    destruct (H z z' i j h h Lz Lz' R1 R2 ltac:(rewrite E2; exact Far)) as (v & w & Ev & Iw & B). rewrite E2 in B. exists v, w. split; [exact Ev|]. split; [exact Iw|].
    destruct (tail_positive h a (k + 1) Hh Far) as (Pa & PT). exact (rims_scaled _ _ _ z z' h a v w PT Pa Q1 Q2 B).
Qed.
